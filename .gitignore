*.aux
*.glob
*.vo
*.vok
*.vos
.*.d
.Makefile.d
.lia.cache
.nia.cache
Makefile
Makefile.conf
.nra.cache
