*.vo
*.vok
*.vos
*.glob
*.aux
*.lia.cache
.lia.cache
rocq/Makefile
rocq/Makefile.conf
rocq/.Makefile.d
.nia.cache
