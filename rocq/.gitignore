*.aux
*.d
*.glob
*.vo
*.vok
*.vos
.CoqMakefile.d
.Makefile.d
.lia.cache
.nia.cache
Makefile
Makefile.conf
