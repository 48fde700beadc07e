*.vo
*.vok
*.vos
*.glob
*.aux
Makefile
Makefile.conf
.Makefile.d
*.d
.lia.cache
.nia.cache
*.aux
.*.aux
*.glob
*.vo
*.vok
*.vos
Makefile
Makefile.conf
.Makefile.d
