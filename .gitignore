*.aux
*.cache
*.glob
*.vo
*.vok
*.vos
.*.aux
.lia.cache
.nia.cache
rocq/.Makefile.d
rocq/Makefile
rocq/Makefile.conf
