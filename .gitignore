*.vo
*.vos
*.vok
*.glob
*.aux
.*.aux
.lia.cache
.nia.cache
.nra.cache
.Makefile.d
Makefile
Makefile.conf
.coqdeps.d
*.d
__pycache__/
