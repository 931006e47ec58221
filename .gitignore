*.vo
*.vok
*.vos
*.glob
*.aux
.*.aux
*.cache
Makefile
Makefile.conf
.Makefile.d
rocq/.Makefile.d
