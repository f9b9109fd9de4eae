.lia.cache
.nia.cache
.nra.cache
*.vo
*.vos
*.vok
*.glob
.*.aux
Makefile.conf
.Makefile.d
rocq/Makefile
