# build output
*.vo
*.vok
*.vos
*.glob
*.aux
.*.aux
*.cache
Makefile
Makefile.conf
.Makefile.d
*.d
