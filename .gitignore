*.vo
*.vok
*.vos
*.glob
*.aux
.*.aux
*.d
.lia.cache
.nia.cache
rocq/Makefile
rocq/Makefile.conf
rocq/.Makefile.d
.nra.cache
