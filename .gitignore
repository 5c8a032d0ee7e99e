*.aux
*.d
*.glob
*.vo
*.vok
*.vos
.*.aux
.lia.cache
.nia.cache
.nra.cache
__pycache__
rocq/Makefile
rocq/Makefile.conf
