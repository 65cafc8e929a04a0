*.vo
*.vos
*.vok
*.glob
.*.aux
*.aux
.nra.cache
.lia.cache
Makefile
Makefile.conf
.Makefile.d
*.d
.nia.cache
