## 6. Wrong programs

`tools/seed.py` applies an edit to a scratch copy of the model, rebuilds it with every broken proof admitted, and reads off
`Print Assumptions` which theorems fall.  `seeded/LOG.jsonl` has one line per edit.  Theorems that survived an edit that made
their English claim false were tightened; the log names them.
