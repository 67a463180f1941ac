__pycache__/
.nra.cache
.lia.cache
