*.vo
*.vok
*.vos
*.glob
*.aux
.*.cache
.*.aux
Makefile
Makefile.conf
.Makefile.d
rocq/.Makefile.d
