*.vo
*.vok
*.vos
*.glob
*.aux
.*.aux
.lia.cache
.nia.cache
.Makefile.d
.coqdeps.d
Makefile
Makefile.conf
CoqMakefile*
*.cache
