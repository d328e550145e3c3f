.lia.cache
*.vo
*.vok
*.vos
*.glob
*.aux
.*.aux
Makefile
Makefile.conf
.Makefile.d
.nra.cache
.nia.cache
.lia.cache
.nra.cache
