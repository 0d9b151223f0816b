*.vo
*.vok
*.vos
*.glob
.*.aux
.lia.cache
.nia.cache
Makefile
Makefile.conf
.Makefile.d
*.cmi
*.cmx
*.cmxs
*.o
.nra.cache
.lra.cache
