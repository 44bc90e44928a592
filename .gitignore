*.aux
*.glob
*.vo
*.vok
*.vos
.*.aux
.Makefile.d
.lia.cache
.nia.cache
.nra.cache
CoqMakefile*
Makefile
Makefile.conf
