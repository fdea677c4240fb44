.lia.cache
.*.cache
