*.vo
*.vok
*.vos
*.glob
*.aux
.*.aux
.nia.cache
.lia.cache
.Makefile.d
Makefile
Makefile.conf
.Makefile.conf.d
