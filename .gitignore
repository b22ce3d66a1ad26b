*.vo
*.vos
*.vok
*.glob
*.aux
.*.aux
Makefile*
.Makefile*
.coqdeps.d
.lia.cache
.nia.cache
