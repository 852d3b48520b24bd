*.vo
*.vos
*.vok
*.glob
*.aux
.lia.cache
.nia.cache
.Makefile.d
rocq/Makefile
rocq/Makefile.conf
rocq/.Makefile.d
.nra.cache
.lia.cache
