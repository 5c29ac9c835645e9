.lia.cache
.nra.cache
*.cache
