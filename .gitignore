*.vo
*.vok
*.vos
*.glob
*.aux
.lia.cache
.nia.cache
.Makefile.d
Makefile
Makefile.conf
*.conf
