.lia.cache
.nia.cache
.nra.cache
.*.aux
*.vo
*.vos
*.vok
*.glob
Makefile
Makefile.conf
.Makefile.d
