*.vo
*.vos
*.vok
*.glob
*.aux
.*.aux
rocq/Makefile
rocq/Makefile.conf
rocq/.Makefile.d
rocq/.lia.cache
.lia.cache
.nia.cache
*.d
*.cache
