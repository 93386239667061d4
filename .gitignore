*.vo
*.vok
*.vos
*.glob
*.aux
.*.aux
.lia.cache
.nia.cache
.nra.cache
Makefile
Makefile.conf
.Makefile.d
rocq/Makefile*
__pycache__/
