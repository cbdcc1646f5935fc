.lia.cache
.nia.cache
*.vo
*.vok
*.vos
*.glob
*.aux
/rocq/Makefile
/rocq/Makefile.conf
/rocq/.Makefile.d
