*.aux
*.d
*.glob
*.vo
*.vok
*.vos
.Makefile.d
.lia.cache
.nra.cache
Makefile
Makefile.conf
.nia.cache
