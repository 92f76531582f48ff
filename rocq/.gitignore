*.vo
*.vok
*.vos
*.glob
*.aux
Makefile
Makefile.conf
.Makefile.d
*.d
.lia.cache
.nra.cache
.nia.cache
.Makefile.d
.coqdeps.d
