*.vo
*.vos
*.vok
*.glob
*.aux
.lia.cache
.nia.cache
.nra.cache
.Makefile.d
Makefile
Makefile.conf
