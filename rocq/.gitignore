*.vo
*.vok
*.vos
*.glob
*.aux
Makefile
Makefile.conf
.Makefile.d
*.d
.nra.cache
.lia.cache
.nia.cache
.lia.cache
