*.vo
*.vok
*.vos
*.glob
.*.aux
*.lia.cache
.lia.cache
.nia.cache
rocq/Makefile
rocq/Makefile.conf
rocq/.Makefile.d
rocq/Makefile.d
