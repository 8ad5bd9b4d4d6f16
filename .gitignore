*.vo
*.vok
*.vos
*.glob
*.aux
.*.aux
.lia.cache
.nra.cache
.nia.cache
.Makefile.d
rocq/Makefile
rocq/Makefile.conf
