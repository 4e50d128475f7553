*.vo
*.vok
*.vos
*.glob
*.aux
.*.aux
.lia.cache
Makefile
Makefile.conf
.Makefile.d
CoqMakefile*
*.d
.nia.cache
.nra.cache
