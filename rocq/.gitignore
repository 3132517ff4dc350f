*.vo
*.vos
*.vok
*.glob
.*.aux
.nra.cache
.lia.cache
Makefile
Makefile.conf
.Makefile.d
