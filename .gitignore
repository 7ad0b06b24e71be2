*.vo
*.vos
*.vok
*.glob
*.aux
.*.cache
.Makefile.d
Makefile
Makefile.conf
.coq-native/
