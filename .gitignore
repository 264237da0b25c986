.nra.cache
.lia.cache
*.cache
