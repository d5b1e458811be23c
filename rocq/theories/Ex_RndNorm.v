(** Instances for normalize_weight in floating point. *)
From Verif Require Import Base Knn_Model KnnRnd_Model RndNorm_Model Float_Model Ex_Knn Ex_KnnRnd Ex_RndPow.
From Coq Require Import QArith.
Definition ex_np3 (tk : option nat) (nw : bool) (X : smat Q) : outcome (smat Q) :=
  np3_learn round64 sqrt64 ex_root ex_roots ex_layout ex_nth ex_sort (1 # 2) tk nw 1 1 X.
Definition ex_nrp3 (tk : option nat) (nw : bool) (X : smat Q) : outcome (smat Q) :=
  nrp3_learn round64 sqrt64 ex_root ex_roots ex_layout ex_nth ex_sort (1 # 2) (1 # 2) tk nw 1 1 X.
