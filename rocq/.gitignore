*.vo
*.vok
*.vos
*.glob
*.aux
Makefile
Makefile.conf
.Makefile.d
*.d
.lia.cache
.nia.cache
.csdp.cache
*.aux
*.vos
*.vok
*.vo
*.glob
Makefile
Makefile.conf
.Makefile.d
