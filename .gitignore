.lia.cache
.nia.cache
*.vo
*.vok
*.vos
*.glob
.*.aux
Makefile
Makefile.conf
.Makefile.d
*.pyc
__pycache__/
