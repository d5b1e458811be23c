(** Example data for C47: seven users in batches of three, two epochs of
    annealing; the roundings keep one decimal place (downwards). *)
From Verif Require Import Base Vae_Model Vae_Spec Vae_Proofs.
From Coq Require Import QArith Qround.
Local Open Scope Z_scope.
Definition tenths (q : Q) : Q := (inject_Z (Qfloor (q * 10)) / 10)%Q.
Lemma tenths_monotone : monotone tenths.
Proof.
  intros x y H. unfold tenths, Qdiv. apply Qmult_le_compat_r; [|discriminate].
  rewrite <- Zle_Qle. apply Qfloor_resp_le. apply Qmult_le_compat_r; [exact H | discriminate].
Qed.
Definition small_trainer : trainer := mkTrainer 7 3 (1 # 5) (tenths (14 # 3)) 0.
Definition two_shuffles : list (list nat) := [[3; 0; 6; 1; 2; 5; 4]; [6; 5; 4; 3; 2; 1; 0]]%nat.
