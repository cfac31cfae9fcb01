.nia.cache
.lia.cache
*.vo
*.vok
*.vos
*.glob
*.aux
Makefile.conf
.Makefile.d
