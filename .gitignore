.csdp.cache
.lia.cache
.nia.cache
.nra.cache
*.vo
*.vok
*.vos
*.glob
*.aux
.*.aux
Makefile
Makefile.conf
.Makefile.d
