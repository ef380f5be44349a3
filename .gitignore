*.aux
*.glob
*.vo
*.vok
*.vos
.*.aux
.Makefile.d
.lia.cache
.nia.cache
.nra.cache
rocq/.CoqMakefile.d
rocq/.Makefile.d
rocq/Makefile
rocq/Makefile.conf
