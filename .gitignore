*.vo
*.vok
*.vos
*.glob
*.aux
.*.aux
.lia.cache
.nia.cache
rocq/Makefile*
.Makefile.d
rocq/.nra.cache
rocq/.lia.cache
*.cache
