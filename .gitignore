
.lia.cache
.nia.cache
