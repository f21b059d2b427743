*.aux
*.glob
*.vo
*.vok
*.vos
.*.aux
.Makefile.d
.lia.cache
Makefile
Makefile.conf
.nia.cache
