__pycache__/
__pycache__/
