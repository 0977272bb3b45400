*.vo
*.vok
*.vos
*.glob
.*.aux
.nra.cache
.lia.cache
.nia.cache
rocq/Makefile
rocq/Makefile.conf
.Makefile.d
