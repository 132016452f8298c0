*.aux
*.cache
*.d
*.glob
*.vo
*.vok
*.vos
.Makefile.d
Makefile
Makefile.conf
