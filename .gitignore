.lia.cache
.nia.cache
*.vo
*.vos
*.vok
*.glob
*.aux
.*.aux
rocq/Makefile
rocq/Makefile.conf
rocq/.Makefile.d
