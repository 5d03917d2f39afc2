.lia.cache
*.cache
.nra.cache
.nia.cache
