*.vo
*.vok
*.vos
*.glob
.*.aux
.lia.cache
.nia.cache
rocq/Makefile
rocq/Makefile.conf
rocq/.Makefile.d
*.cache
*.lia.cache
.lia.cache
.nia.cache
