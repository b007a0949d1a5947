*.vo
*.vok
*.vos
*.glob
*.aux
Makefile
Makefile.conf
.Makefile.d
*.d
*.vok
*.vos
*.glob
*.aux
.*.aux
.*.cache
Makefile
Makefile.conf
.Makefile.d
