*.vo
*.vok
*.vos
*.glob
*.aux
.*.aux
.lia.cache
.nia.cache
.nra.cache
.psatz.cache
rocq/Makefile
rocq/Makefile.conf
rocq/.Makefile.d
