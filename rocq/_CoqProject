-Q theories Verif
theories/Base.v
theories/Dice.v
theories/Position.v
theories/MixedMoves.v
theories/DoubleMoves.v
theories/MoveGen.v
theories/Str.v
theories/Variants.v
theories/Rules.v
theories/Game.v
theories/SpecRules.v
theories/SpecVariants.v
theories/BaseFacts.v
theories/MoveFacts.v
theories/Commute.v
theories/MixedProof.v
theories/DoubleProof.v
theories/FlipFacts.v
theories/MoveGenProof.v
theories/PipFacts.v
theories/VariantFacts.v
theories/ModeFacts.v
theories/PropMoves.v
theories/SpecGame.v
theories/GameStateFacts.v
theories/TryFromFacts.v
theories/PropPosition.v
theories/SpecDice.v
theories/PropDice.v
theories/SpecEpisode.v
theories/GameFacts.v
theories/PropGame.v
theories/Utils.v
theories/SpecComb.v
theories/HashFacts.v
theories/PropHash.v
theories/StrFacts.v
theories/EqFacts.v
theories/PosDebug.v
theories/DebugFacts.v
theories/SpecText.v
theories/PropIdentity.v
theories/Base64.v
theories/Gnuid.v
theories/SpecGnuid.v
theories/GnuidFacts.v
theories/Base64Facts.v
theories/PropGnuid.v
theories/Err.v
theories/Xgid.v
theories/SpecXgid.v
theories/NumFacts.v
theories/XgidFacts.v
theories/PropXgid.v
theories/Fibs.v
theories/SpecFibs.v
theories/FibsFacts.v
theories/PropFibs.v
theories/MoveText.v
theories/SpecMoveText.v
theories/TextFacts.v
theories/MoveTextFacts.v
theories/LeafFacts.v
theories/LeafLegal.v
theories/EncodeFacts.v
theories/LegalMovesFacts.v
theories/LegalTexts.v
theories/PropMoveText.v
theories/EngineSpec.v
theories/SpecEngine.v
theories/EngineFacts.v
theories/PropEngine.v
theories/Ubgi.v
theories/Runtime.v
theories/SpecUbgi.v
theories/UbgiFacts.v
theories/PropUbgi.v
theories/Perft.v
theories/SpecPerft.v
theories/PerftFacts.v
theories/PropPerft.v
theories/Conversion.v
theories/SpecConversion.v
theories/PropConversion.v
theories/SpecLists.v
theories/NoDupFacts.v
theories/PropLists.v
theories/Show.v
theories/SpecShow.v
theories/PropShow.v
theories/DiceText.v
theories/SpecKeyLine.v
theories/PropTexts.v
theories/PropReplies.v
theories/Corpus.v
theories/SpecCorpus.v
theories/PropCorpus.v
theories/SpecExact.v
theories/PropExact.v
theories/PropApply.v
theories/PropListing.v
theories/SpecHash.v
theories/PropHashExact.v
theories/SpecExact2.v
theories/PropExact2.v
theories/Float32.v
theories/SpecChances.v
theories/FloatFacts.v
theories/PropFloat.v
theories/TextEqFacts.v
theories/PropEqual.v
theories/EngineDefaults.v
theories/PropDefault.v
theories/SpecPlay.v
theories/PropPlay.v
theories/RaceFacts.v
theories/SpecRace.v
theories/PropRace.v
theories/PropLength.v
theories/SpecDeadlock.v
theories/PropDeadlock.v
theories/Bench.v
theories/SpecBench.v
theories/PropBench.v
theories/DiceSource.v
theories/SpecSource.v
theories/PropSource.v
theories/SpecReplay.v
theories/PropReplay.v
theories/SpecWritten.v
theories/WrittenFacts.v
theories/PropWritten.v
theories/PropReformat.v
theories/SpecLaws.v
theories/PropLaws.v
theories/SpecOutput.v
theories/PropOutput.v
theories/ErrorText.v
theories/SpecErrors.v
theories/PropErrors.v
theories/PropFinished.v
theories/SpecMaps.v
theories/PropMaps.v
theories/BoardFacts.v
theories/SpecBoard.v
theories/PropBoard.v
theories/SpecFinish.v
theories/FinishFacts.v
theories/PropFinish.v
theories/RepoTests.v
theories/SpecLuck.v
theories/LuckFacts.v
theories/PropLuck.v
theories/EndFacts.v
theories/EndFacts2.v
theories/EndFacts3.v
theories/PropEnd.v
theories/Printed.v
theories/SpecPrinted.v
theories/PrintedFacts.v
theories/PropPrinted.v
theories/SpecHowLong.v
theories/HowLongData.v
theories/PropHowLong.v
theories/SpecNoHit.v
theories/PropNoHit.v
theories/ResultsData.v
theories/PropResults.v
theories/SpecStream.v
theories/PropStream.v
theories/CountFacts.v
theories/SpecCount.v
theories/PropCount.v
theories/SpecSplit.v
theories/SplitFacts.v
theories/PropSplit.v
theories/SpecBuilds.v
theories/BuildFacts.v
theories/PropBuilds.v
theories/SpecArmies.v
theories/ArmyFacts.v
theories/PropArmies.v
theories/SpecResume.v
theories/PropResume.v
theories/SpecCut.v
theories/PropCut.v
theories/Assumptions.v
