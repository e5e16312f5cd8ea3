*.vo
*.vok
*.vos
*.glob
*.aux
Makefile
Makefile.conf
.Makefile.d
*.d
*.cache
.*.cache
*.timing
*.crashcoqide
