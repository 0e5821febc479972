*.vo
*.vok
*.vos
*.glob
*.aux
Makefile
Makefile.conf
.Makefile.d
*.d
*.nra.cache
*.lia.cache
.nra.cache
.lia.cache
.lia.cache
.nia.cache
.nra.cache
.csdp.cache
