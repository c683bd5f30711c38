.lia.cache
.nra.cache
.lia.cache
.nia.cache
