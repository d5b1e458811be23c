(** Rounding to IEEE formats, by Flocq: the rounding of Float_Model.v is to the
    nearest representable number, so it is monotone and exact on the integers
    of the format. *)
From Coq Require Import ZArith QArith Qround Qreals Reals Lra Lia SpecFloat.
From Coq Require Lqa.
From Flocq Require Import Core BinarySingleNaN.
From Verif Require Import Base Rec_Model Float_Model Split_Spec Split_Proofs.
Local Open Scope R_scope.

Lemma nearest_even_eq s m l : round_nearest_even m l = choice_mode mode_NE s m l.
Proof. case l; [reflexivity|intro c]. case c; [|reflexivity..]. simpl. unfold Round.cond_incr. now case Z.even. Qed.

Section Format.
Variables prec emax : Z.
Context (Hprec : Prec_gt_0 prec) (Hmax : Prec_lt_emax prec emax).
Local Instance fexp_valid : Valid_exp (SpecFloat.fexp prec emax) := fexp_correct prec emax Hprec.
Let rnd := round radix2 (SpecFloat.fexp prec emax) (round_mode mode_NE).

Lemma round_aux_eq sx mx ex lx :
  SpecFloat.binary_round_aux prec emax sx mx ex lx = binary_round_aux prec emax mode_NE sx mx ex lx.
Proof.
  unfold SpecFloat.binary_round_aux, binary_round_aux. set (mrse' := shr_fexp _ _ _ _ _). case mrse'; intros mrs' e'; simpl.
  now rewrite (nearest_even_eq sx).
Qed.

Lemma SF2Q_real x : is_finite_SF x = true -> exists q, SF2Q x = Some q /\ Q2R q = SF2R radix2 x.
Proof.
  destruct x as [s|s| |s m e]; try discriminate; intros _.
  - exists 0%Q. split; [reflexivity|]. unfold Q2R. cbn. lra.
  - unfold SF2Q. cbn zeta. eexists. split; [reflexivity|]. unfold SF2R, F2R. cbn [Fnum Fexp].
    replace (cond_Zopp s (Zpos m)) with (if s then Zneg m else Zpos m) by (destruct s; reflexivity).
    set (z := if s then Zneg m else Zpos m). destruct (Z.leb_spec 0 e) as [H|H].
    + unfold Q2R, inject_Z. cbn [Qnum Qden]. rewrite mult_IZR, (IZR_Zpower radix2) by exact H. lra.
    + unfold Q2R. cbn [Qnum Qden]. f_equal.
      rewrite Z2Pos.id by (apply Z.pow_pos_nonneg; lia).
      rewrite (IZR_Zpower radix2) by lia. rewrite bpow_opp. apply Rinv_involutive. apply Rgt_not_eq, bpow_gt_0.
Qed.

(** The value of the fraction given to the division algorithm. *)
Lemma fraction_real (q : Q) s m : Qnum q = cond_Zopp s (Zpos m) ->
  F2R (Float radix2 (cond_Zopp s (Zpos m)) 0) / F2R (Float radix2 (cond_Zopp false (Zpos (Qden q))) 0) = Q2R q.
Proof. intros H. unfold F2R, Q2R. cbn [Fnum Fexp cond_Zopp]. rewrite H. simpl bpow. field. apply IZR_neq. discriminate. Qed.

Lemma round_float_spec q :
  if Rlt_bool (Rabs (rnd (Q2R q))) (bpow radix2 emax)
  then exists r, SF2Q (round_float prec emax q) = Some r /\ Q2R r = rnd (Q2R q)
  else SF2Q (round_float prec emax q) = None.
Proof.
  unfold round_float. destruct (Qnum q) as [|m|m] eqn:E.
  - assert (Q2R q = 0) as -> by (unfold Q2R; rewrite E; lra). unfold rnd. rewrite round_0 by auto with typeclass_instances. rewrite Rabs_R0.
    rewrite Rlt_bool_true by apply bpow_gt_0. exists 0%Q. split; [reflexivity|]. unfold Q2R. cbn. lra.
  - pose proof (Bdiv_correct_aux prec emax Hprec Hmax mode_NE false m 0 false (Qden q) 0) as [_ H]. cbn zeta in H.
    rewrite (fraction_real q false m E) in H. fold rnd in H.
    destruct (SFdiv_core_binary _ _ _ _ _ _) as [[mz ez] lz]. cbn [xorb] in H. rewrite round_aux_eq.
    destruct (Rlt_bool _ _).
    + destruct H as (H1 & H2 & _). destruct (SF2Q_real _ H2) as (r & Hr1 & Hr2). exists r. split; [exact Hr1|congruence].
    + rewrite H. reflexivity.
  - pose proof (Bdiv_correct_aux prec emax Hprec Hmax mode_NE true m 0 false (Qden q) 0) as [_ H]. cbn zeta in H.
    rewrite (fraction_real q true m E) in H. fold rnd in H.
    destruct (SFdiv_core_binary _ _ _ _ _ _) as [[mz ez] lz]. cbn [xorb] in H. rewrite round_aux_eq.
    destruct (Rlt_bool _ _).
    + destruct H as (H1 & H2 & _). destruct (SF2Q_real _ H2) as (r & Hr1 & Hr2). exists r. split; [exact Hr1|congruence].
    + rewrite H. reflexivity.
Qed.

Definition roundQ (q : Q) : Q := match SF2Q (round_float prec emax q) with Some r => r | None => q end.
Lemma roundQ_cases q :
  (Rabs (rnd (Q2R q)) < bpow radix2 emax /\ Q2R (roundQ q) = rnd (Q2R q)) \/
  (bpow radix2 emax <= Rabs (rnd (Q2R q)) /\ roundQ q = q).
Proof.
  unfold roundQ. pose proof (round_float_spec q) as H. destruct (Rlt_bool_spec (Rabs (rnd (Q2R q))) (bpow radix2 emax)) as [L|L].
  - destruct H as (r & -> & H). left. auto.
  - rewrite H. right. auto.
Qed.
Lemma rnd_le x y : x <= y -> rnd x <= rnd y.
Proof. apply round_le; auto with typeclass_instances. Qed.
Lemma rnd_idem x : rnd (rnd x) = rnd x.
Proof. apply round_generic; auto with typeclass_instances. apply generic_format_round; auto with typeclass_instances. Qed.
Lemma roundQ_mono a b : (a <= b -> roundQ a <= roundQ b)%Q.
Proof.
  intros H. apply Qle_Rle in H. apply Rle_Qle. pose proof (rnd_le _ _ H) as M.
  destruct (roundQ_cases a) as [[A1 A2]|[A1 A2]]; destruct (roundQ_cases b) as [[B1 B2]|[B1 B2]]; rewrite A2, B2.
  - exact M.
  - destruct (Rle_or_lt (rnd (Q2R a)) (Q2R b)) as [X|X]; [exact X|]. exfalso.
    apply Rlt_le, rnd_le in X. rewrite rnd_idem in X. assert (rnd (Q2R a) = rnd (Q2R b)) as Y by lra. rewrite Y in A1. lra.
  - destruct (Rle_or_lt (Q2R a) (rnd (Q2R b))) as [X|X]; [exact X|]. exfalso.
    apply Rlt_le, rnd_le in X. rewrite rnd_idem in X. assert (rnd (Q2R a) = rnd (Q2R b)) as Y by lra. rewrite <- Y in B1. lra.
  - exact H.
Qed.
Lemma rnd_integer n : (Z.abs n <= 2 ^ prec)%Z -> rnd (IZR n) = IZR n.
Proof.
  intros H. apply round_generic; auto with typeclass_instances. change (SpecFloat.fexp prec emax) with (FLT_exp (SpecFloat.emin prec emax) prec).
  pose proof Hprec as P. red in P. pose proof Hmax as M. red in M.
  assert (SpecFloat.emin prec emax <= 0)%Z as Em by (unfold SpecFloat.emin; lia).
  destruct (Z.eq_dec (Z.abs n) (2 ^ prec)) as [E|E].
  - assert (generic_format radix2 (FLT_exp (SpecFloat.emin prec emax) prec) (bpow radix2 prec)) as G.
    { apply generic_format_bpow. unfold FLT_exp. lia. }
    rewrite <- (IZR_Zpower radix2) in G by lia. change (Z.pow radix2 prec) with (2 ^ prec)%Z in G. rewrite <- E in G.
    destruct (Z.abs_spec n) as [[_ X]|[_ X]]; rewrite X in G; [exact G|].
    rewrite opp_IZR in G. apply generic_format_opp in G. rewrite Ropp_involutive in G. exact G.
  - apply generic_format_FLT. exists (Float radix2 n 0).
    + unfold F2R. cbn. ring.
    + cbn. change (Z.pow_pos 2) with (Zpower_pos 2). lia.
    + exact Em.
Qed.
Lemma roundQ_integer n : (Z.abs n <= 2 ^ prec)%Z -> (roundQ (inject_Z n) == inject_Z n)%Q.
Proof.
  intros H. apply eqR_Qeq. assert (Q2R (inject_Z n) = IZR n) as E by (unfold Q2R, inject_Z; cbn; lra).
  destruct (roundQ_cases (inject_Z n)) as [[_ A]|[_ A]]; rewrite A; [|reflexivity]. rewrite E. apply rnd_integer, H.
Qed.
Lemma roundQ_faithful : faithful roundQ (Z.to_nat (2 ^ prec)).
Proof.
  split; [exact roundQ_mono|]. intros n Hn. apply roundQ_integer.
  assert (0 <= 2 ^ prec)%Z by (apply Z.pow_nonneg; lia). lia.
Qed.
End Format.

Lemma round64_faithful : faithful round64 (Z.to_nat (2 ^ 53)).
Proof. apply (roundQ_faithful 53 1024); reflexivity. Qed.

(** Rounding moves a product only within its integer interval. *)
Lemma faithful_near rnd B nnz q : faithful rnd B -> (nnz <= B)%nat -> (0 <= q <= 1)%Q ->
  let x := (inject_Z (Z.of_nat nnz) * q)%Q in
  (Qfloor x <= Qfloor (rnd x) <= Qfloor x + 1)%Z /\ (Qceiling x - 1 <= Qceiling (rnd x) <= Qceiling x)%Z.
Proof.
  intros [M I] Hn [Q0 Q1] x.
  assert (0 <= inject_Z (Z.of_nat nnz))%Q as N0 by (change 0%Q with (inject_Z 0); rewrite <- Zle_Qle; lia).
  assert (0 <= x)%Q as X0 by (apply Qmult_le_0_compat; assumption).
  assert (x <= inject_Z (Z.of_nat nnz))%Q as X1.
  { unfold x. setoid_replace (inject_Z (Z.of_nat nnz)) with (inject_Z (Z.of_nat nnz) * 1)%Q at 2 by ring.
    rewrite (Qmult_comm _ q), (Qmult_comm _ 1). apply Qmult_le_compat_r; assumption. }
  clearbody x.
  assert (forall k, (0 <= k <= Z.of_nat nnz)%Z -> (rnd (inject_Z k) == inject_Z k)%Q) as Ik.
  { intros k Hk. rewrite <- (Z2Nat.id k) by lia. apply I. lia. }
  assert (0 <= Qfloor x)%Z as F0. { change 0%Z with (Qfloor (inject_Z 0)). apply Qfloor_resp_le. exact X0. }
  assert (Qceiling x <= Z.of_nat nnz)%Z as C1. { rewrite <- (Qceiling_Z (Z.of_nat nnz)). apply Qceiling_resp_le. exact X1. }
  assert (Qfloor x <= Qceiling x)%Z as FC. { rewrite Zle_Qle. eapply Qle_trans; [apply Qfloor_le|apply Qle_ceiling]. }
  assert (inject_Z (Qfloor x) <= rnd x)%Q as L. { rewrite <- Ik by lia. apply M, Qfloor_le. }
  assert (rnd x <= inject_Z (Qceiling x))%Q as U. { rewrite <- (Ik (Qceiling x)) by lia. apply M, Qle_ceiling. }
  assert (Qceiling x <= Qfloor x + 1)%Z as CF.
  { assert (Qceiling x < Qfloor x + 2)%Z; [|lia]. rewrite Zlt_Qlt. rewrite inject_Z_plus. change (inject_Z 2) with 2%Q.
    pose proof (Qlt_floor x) as H1. rewrite inject_Z_plus in H1. change (inject_Z 1) with 1%Q in H1.
    pose proof (Qceiling_lt x) as H2. unfold Z.sub in H2. rewrite inject_Z_plus in H2. change (inject_Z (- (1))) with (-1)%Q in H2. Lqa.lra. }
  apply Qfloor_resp_le in L as L1. rewrite Qfloor_Z in L1. apply Qfloor_resp_le in U as U1. rewrite Qfloor_Z in U1.
  apply Qceiling_resp_le in L as L2. rewrite Qceiling_Z in L2. apply Qceiling_resp_le in U as U2. rewrite Qceiling_Z in U2.
  lia.
Qed.

Lemma rowwise_double s sh n_cols rows train test r : row_shuffles sh ->
  Forall (fun row => (Z.of_nat (length row) <= 2 ^ 53)%Z) rows -> Forall (Forall (fun e => int64_range (snd e))) rows ->
  rowwise_split round64 s sh n_cols rows = Ok (train, test) -> (r < length rows)%nat ->
  let nnz := length (nth r rows []) in
  let held := length (filter (of_row r) (c_ent test)) in
  match s with
  | ByRatio q true => (Qceiling (inject_Z (Z.of_nat nnz) * q) - 1 <= Z.of_nat held <= Qceiling (inject_Z (Z.of_nat nnz) * q))%Z
  | ByRatio q false => (Qfloor (inject_Z (Z.of_nat nnz) * q) <= Z.of_nat held <= Qfloor (inject_Z (Z.of_nat nnz) * q) + 1)%Z
  | FixedN n => held = min nnz n
  end.
Proof.
  intros Hs Hl Hi H Hr nnz held.
  assert (Forall (fun row : list (nat * Q) => (length row <= Z.to_nat (2 ^ 53))%nat) rows) as Hl'.
  { eapply Forall_impl; [|exact Hl]. cbn beta. intros row Hrow. lia. }
  pose proof (rowwise_counts _ _ s sh n_cols rows train test r round64_faithful Hs Hl' Hi H Hr) as [_ [_ E]].
  fold nnz in E. fold held in E.
  destruct (rowwise_accepts _ _ s sh n_cols rows round64_faithful Hs Hl' Hi) as [_ Bad].
  assert (nnz <= Z.to_nat (2 ^ 53))%nat as Hn by (apply (proj1 (Forall_forall _ _) Hl'), nth_In; exact Hr).
  clearbody nnz held. clear Hl Hl' Hi Hr.
  destruct s as [q [|]|n]; [| |exact E].
  all: assert (0 <= q <= 1)%Q as Hq by
    (destruct (Qlt_le_dec q 0); [exfalso; rewrite Bad in H by (intros []; Lqa.lra); discriminate|];
     destruct (Qlt_le_dec 1 q); [exfalso; rewrite Bad in H by (intros []; Lqa.lra); discriminate|]; split; assumption).
  all: rewrite E; apply (faithful_near _ _ nnz q round64_faithful Hn Hq).
Qed.
