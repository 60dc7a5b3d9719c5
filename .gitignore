.lia.cache
.nia.cache
*.vo
*.vos
*.vok
*.glob
*.aux
rocq/Makefile*
rocq/.Makefile*
.nra.cache
__pycache__
