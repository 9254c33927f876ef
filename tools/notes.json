{
"C01":{"status":"proved","note":"C01_wrong_rank_refuted records that add with a 1-D/2-D rank mix-up breaks alignment outside the stated hypotheses."},
"C06":{"status":"proved","note":"Stated for a decision vector (1-D). C06_repair_matrix_refuted: a 2-D matrix always raises IndexError in the code."},
"C18":{"note":"The >= in the budget test lets a run overshoot; the exact bound is proved, the naive upper limit refuted."}
}
