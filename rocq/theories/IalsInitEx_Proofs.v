(** The example arguments meet the hypotheses of the theorems about the
    constructor. *)
From Coq Require Import String.
From Verif Require Import Base.
From Verif Require PyStr_Model.
From mathcomp Require Import all_ssreflect all_algebra.
From mathcomp.algebra_tactics Require Import ring.
Import Order.TTheory GRing.Theory Num.Theory.
From Verif Require Import Ials_Model Ials_Spec IalsRow_Proofs IalsTrain_Proofs IalsState_Model IalsState_Spec.
From Verif Require Import IalsInit_Model IalsInit_Spec IalsInit_Proofs Ex_Ials IalsEx_Proofs Ex_IalsInit.
Set Implicit Arguments.
Unset Strict Implicit.
Unset Printing Implicit Defensive.
Local Open Scope ring_scope.

Section Ex.
Variable F : realFieldType.
Local Notation pow01 := (@pow01 F).
Local Notation log_ex := (@log_ex F).

Lemma pow01_like : power_like pow01.
Proof.
split=> [b e h|b e h|e h]; rewrite /pow01.
- by case: ifP; rewrite ?ler01.
- by case: ifP; rewrite ?ltr01.
by rewrite (gt_eqF h).
Qed.
Lemma log_ex_like : log_like log_ex.
Proof. by split=> [|x y _ h]; rewrite /log_ex ?subrr // ltr_add2r. Qed.

Lemma size_X_1t j : size (transpose (@X_1 F) j) = (j == ord0)%N.
Proof. by rewrite (rep_size (transpose_rep (@rep_1 F) j)) n_observed_1'. Qed.

Lemma scale_1 : compute_reg_scale pow01 (@X_1 F) 1 1 = Ok 6%:R /\ compute_reg_scale pow01 (@X_1 F) 1 0 = Ok 3%:R.
Proof.
have hb (k : nat) o e : (0 < o)%N -> pow_ok (k%:R + 1 * o%:R : F) e.
  by move=> ho; rewrite /pow_ok mul1r ltr_paddl ?ler0n ?ltr0n.
rewrite /compute_reg_scale; split; rewrite ifT.
- rewrite !big_ord_recl !big_ord0 !size_X_1t /pow01 oner_eq0 /=; congr (Ok _); by ring.
- by apply/andP; split; apply/forallP => i; apply: hb.
- rewrite !big_ord_recl !big_ord0 /pow01 eqxx; congr (Ok _); by ring.
- by apply/andP; split; apply/forallP => i; apply: hb.
Qed.

Definition rec_1 : ials_rec F :=
  IalsRec (ModelConfig 1 6%:R^-1 1 LossIalspp 1 1 0) (SolverConfig 2 Cholesky 3 64 1) false 1 1.
Lemma init_1 hf : ials_init ascii_upper pow01 (@args_1 F) (@X_1 F) hf = Ok rec_1.
Proof.
rewrite /ials_init.
have -> : str_to_scaling (g_scaling (@args_1 F)) = Ok false by [].
have -> : str_to_solver_type ascii_upper (g_solver (@args_1 F)) = Ok Cholesky by [].
have -> : str_to_loss_type ascii_upper (g_loss (@args_1 F)) = Ok LossIalspp by [].
have [e1 e0] := scale_1.
rewrite /scaled_reg [g_nu_star _]/= [g_alpha0 _]/= [g_nu _]/= [g_reg _]/= e1 e0.
rewrite [Base.obind _ _]/= pnatr_eq0 /=.
have -> : hf && is_str (g_solver (@args_1 F)) "IALSPP" = false by rewrite andbC.
congr (Ok (IalsRec (ModelConfig _ _ _ _ _ _ _) _ _ _ _)); by field.
Qed.

(** No interactions, alpha0 = 0: the default value. *)
Lemma init_zero hf : ials_init ascii_upper pow01 (args_of 0 "none" "CG" 1 (Some 0)) (@X_0 F) hf = Fail ZeroDivision.
Proof.
apply/(division_by_zero (rep_0 F) hf pow01_like (a := args_of 0 "none" "CG" 1 (Some 0)) (ns := 0)) => //=.
- by split; [left|constructor 2|right].
- exact: ltr01.
by split=> //; constructor 1.
Qed.

(** Lower case "ialspp" with features *)
Lemma init_ialspp X : exists r, ials_init ascii_upper pow01 (args_of 1 "none" "ialspp" 1 None) (X : sparse F 1 2) true = Ok r /\
  [/\ solver (r_sc r) = IALSPP, r_epochs r = 1%N, r_log r = false & r_cfg r = ModelConfig 1 3%:R^-1 1 LossIalspp 1 1 0].
Proof.
exists (IalsRec (ModelConfig 1 3%:R^-1 1 LossIalspp 1 1 0) (SolverConfig 2 IALSPP 3 64 1) false 1 1).
by split.
Qed.
Lemma init_ialspp_upper X : ials_init ascii_upper pow01 (args_of 1 "none" "IALSPP" 1 None) (X : sparse F 1 2) true = Fail ValueError.
Proof. by []. Qed.
Lemma learn_ialspp_1 user0 item0 es :
  ials_learn ascii_upper pow01 log_ex (Some (const_mx 1 : 'M[F]_(1, 1))) (None : option 'M[F]_(2, 0))
    (args_of 1 "none" "ialspp" 1 None) X_1 (user0 : 'M[F]_(1, 1)) item0 es = Fail InvalidArgument.
Proof.
have [r [h1 [h2 h3 h4 h5]]] := init_ialspp X_1.
have [dt hdt] : exists dt, create_trainer log_ex (Some (const_mx 1 : 'M[F]_(1, 1))) (None : option 'M[F]_(2, 0)) r X_1 user0 item0 = Ok dt.
  rewrite /create_trainer h4 /= /new_trainer h5 /= ler10 /=; by eexists.
have h6 : (0 < r_epochs r)%N by rewrite h3.
have hg : given (Some (const_mx 1 : 'M[F]_(1, 1))) || given (None : option 'M[F]_(2, 0)) by [].
refine (learn_ialspp (uf := Some (const_mx 1 : 'M[F]_(1, 1))) (itf := (None : option 'M[F]_(2, 0))) es _ hdt hg h2 h6).
exact: h1.
Qed.

(** An epsilon that is not positive is accepted. *)
Lemma init_epsilon eps : exists r, ials_init ascii_upper pow01 (args_of 1 "log" "CG" eps None) (@X_1 F) false = Ok r /\
  r_log r = true /\ r_epsilon r = eps.
Proof. by eexists; split; [reflexivity|split]. Qed.
Lemma bad_epsilon : scale_data log_ex true 0 (@X_1 F) = Fail NotANumber.
Proof.
rewrite /scale_data ifF //; apply/negbTE/negP => /forallP /(_ ord0) /=.
by rewrite /log_ok eqxx.
Qed.
Lemma learn_hyp_1 : [/\ represents X_1 (@obs_1 F), nonneg (@obs_1 F), known_names ascii_upper (@args_1 F) & known_names ascii_upper (@args_log F)].
Proof.
split; [exact: rep_1|exact: nonneg_1| |]; split.
- by left.
- by constructor 1.
- by right.
- by right.
- by constructor 2.
- by right.
Qed.
Lemma example_log : exists r, ials_init ascii_upper pow01 (@args_log F) X_1 false = Ok r /\
  confidence log_ex (@args_log F) 1 = 2%:R^-1.
Proof.
by eexists; split; [reflexivity|]; rewrite /confidence /log_ex /= mul1r addrAC subrr add0r.
Qed.
Lemma neg_eps_pos : 0 < - g_epsilon (@args_of F 1 "log" "CG" (- 2%:R) None).
Proof. by rewrite /= opprK ltr0n. Qed.
Lemma neg_confidence : confidence log_ex (@args_of F 1 "log" "CG" (- 2%:R) None) 1 < 0.
Proof. by rewrite /confidence /log_ex /= mul1r addrAC subrr add0r invrN oppr_lt0 invr_gt0 ltr0n. Qed.
End Ex.
