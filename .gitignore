*.vo
*.vok
*.vos
*.glob
*.aux
.*.aux
.*.cache
.lia.cache
.nia.cache
.nra.cache
rocq/Makefile
rocq/Makefile.conf
rocq/.Makefile.d
__pycache__
