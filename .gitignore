rocq/Makefile
rocq/Makefile.conf
rocq/.Makefile.d
rocq/.*.cache
rocq/.lia.cache
*.vo
*.vok
*.vos
*.glob
*.aux
.*.aux
.lia.cache
*.cache
