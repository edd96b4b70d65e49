*.vo
*.vok
*.vos
*.glob
.*.aux
*.aux
rocq/Makefile
rocq/Makefile.conf
rocq/.Makefile.d
rocq/.lia.cache
.lia.cache
.nia.cache
.nra.cache
*.nra.cache
*.cache
