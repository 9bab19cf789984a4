*.vo
*.vok
*.vos
*.glob
*.aux
.*.aux
Makefile*
.Makefile.d
.lia.cache
.nia.cache
*.crashcoqide
CoqMakefile*
.nra.cache
.lia.cache
.nia.cache
