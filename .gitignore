*.vo
*.vos
*.vok
*.glob
*.aux
.nra.cache
.lia.cache
.nia.cache
Makefile
Makefile.conf
.Makefile.d
