*.vo
*.vok
*.vos
*.glob
*.aux
.*.aux
*.cache
.*.cache
Makefile
Makefile.conf
.Makefile.d
.coqdeps.d
