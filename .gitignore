*.vo
*.vok
*.vos
*.glob
*.aux
.*.aux
*.cache
.lia.cache
.nia.cache
rocq/Makefile
rocq/Makefile.conf
rocq/.Makefile.d
*.d
