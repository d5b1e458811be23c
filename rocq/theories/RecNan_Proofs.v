(** Proofs about scores that are not numbers. *)
From Verif Require Import Base Sched_Model Sched_Proofs Eval_Model Sort_Proofs EvalPy_Model Eval_Spec Eval_Core_Proofs RecNan_Spec Rec_Proofs.
Local Open Scope nat_scope.

(** ** The comparison of numbers *)
Lemma slt_irrefl a : slt a a = false.
Proof. unfold slt. now rewrite scmp_refl. Qed.
Lemma slt_trans a b c : slt a b = true -> slt b c = true -> slt a c = true.
Proof. rewrite !slt_lt. apply scmp_lt_trans. Qed.
Lemma tied_slt a b : slt a b = false -> slt b a = false -> scmp a b = Eq.
Proof. unfold slt. rewrite (scmp_antisym a b). destruct (scmp a b); cbn; congruence. Qed.

Lemma strict_weak_false {X} (lt : X -> X -> bool) l : strict_weak lt l = false <->
  (exists a, In a l /\ lt a a = true) \/
  (exists a b c, In a l /\ In b l /\ In c l /\ lt a b = true /\ lt b c = true /\ lt a c = false) \/
  (exists a b c, In a l /\ In b l /\ In c l /\ tied lt a b = true /\ tied lt b c = true /\ tied lt a c = false).
Proof.
  unfold strict_weak. split.
  - intros H. apply (f_equal negb) in H. cbn [negb] in H.
    assert (FN : forall (p : X -> bool) m, negb (forallb p m) = true -> exists x, In x m /\ p x = false).
    { intros p m. induction m as [|x m IH]; cbn; [discriminate|]. destruct (p x) eqn:E; cbn; [|intros _; exists x; auto].
      intros Hm. destruct (IH Hm) as (y & Hy & Ey). exists y. auto. }
    apply FN in H as (a & Ha & H). apply andb_false_iff in H as [H|H].
    + left. exists a. split; auto. now apply negb_false_iff in H.
    + apply (f_equal negb) in H. apply FN in H as (b & Hb & H). apply (f_equal negb) in H. apply FN in H as (c & Hc & H).
      apply andb_false_iff in H as [H|H]; right; [left|right]; exists a, b, c.
      * destruct (lt a b), (lt b c), (lt a c); cbn in H; try discriminate. auto 9.
      * destruct (tied lt a b), (tied lt b c), (tied lt a c); cbn in H; try discriminate. auto 9.
  - intros H. match goal with |- ?x = false => destruct x eqn:E; auto end. exfalso. rewrite forallb_forall in E.
    destruct H as [(a & Ha & H)|[(a & b & c & Ha & Hb & Hc & H1 & H2 & H3)|(a & b & c & Ha & Hb & Hc & H1 & H2 & H3)]];
      specialize (E a Ha); apply andb_true_iff in E as [E1 E2].
    + now rewrite H in E1.
    + rewrite forallb_forall in E2. specialize (E2 b Hb). rewrite forallb_forall in E2. specialize (E2 c Hc). rewrite H1, H2, H3 in E2. discriminate.
    + rewrite forallb_forall in E2. specialize (E2 b Hb). rewrite forallb_forall in E2. specialize (E2 c Hc). rewrite H1, H2, H3, andb_false_r in E2. discriminate.
Qed.

(** The batch call compares scores only. *)
Lemma mixed_iff (l : list (nat * fscore)) : strict_weak fgreater l = false <-> mixed (map snd l).
Proof.
  rewrite strict_weak_false. unfold mixed. split.
  - intros [(a & Ha & H)|[(a & b & c & Ha & Hb & Hc & H1 & H2 & H3)|(a & b & c & Ha & Hb & Hc & H1 & H2 & H3)]].
    + unfold fgreater in H. destruct (snd a); cbn in H; [|discriminate]. now rewrite slt_irrefl in H.
    + unfold fgreater in *. destruct (snd a), (snd b), (snd c); cbn in *; try discriminate.
      now rewrite (slt_trans _ _ _ H2 H1) in H3.
    + unfold tied, fgreater in *. apply andb_true_iff in H1 as [H1 H1'], H2 as [H2 H2']. apply negb_true_iff in H1, H1', H2, H2'.
      apply in_map with (f := snd) in Ha, Hb, Hc. destruct (snd a) as [x|] eqn:Ea, (snd b) as [y|] eqn:Eb, (snd c) as [z|] eqn:Ec; cbn in *; try discriminate.
      * pose proof (tied_slt _ _ H1' H1) as E1. pose proof (tied_slt _ _ H2' H2) as E2.
        assert (E3 : scmp x z = Eq) by now rewrite (scmp_eq_trans_l _ _ z E1).
        unfold slt in H3. rewrite E3, (scmp_antisym x z), E3 in H3. discriminate.
      * split; auto. apply andb_false_iff in H3 as [H3|H3]; apply negb_false_iff in H3; apply slt_lt in H3; [exists z, x|exists x, z]; auto.
  - intros (HN & x & y & Hx & Hy & Hlt). right. right.
    apply in_map_iff in HN as (n & En & Hn). apply in_map_iff in Hx as (p & Ep & Hp). apply in_map_iff in Hy as (q & Eq & Hq).
    exists p, n, q. unfold tied, fgreater. rewrite En, Ep, Eq. cbn. apply slt_lt in Hlt. rewrite Hlt, andb_false_r. auto 9.
Qed.

Section Ids.
Context {I : Type}.
Variable eq_dec : forall a b : I, {a = b} + {a <> b}.

(** ** Pools *)
Definition fwith (ids : list I) (d : I) (row : list fscore) (i : nat) : I * fscore := (nth i ids d, nth i row NaN).
Lemma fcombine_seq ids row d : length ids = length row -> combine ids row = map (fwith ids d row) (seq 0 (length row)).
Proof.
  revert row. induction ids as [|y l IH]; intros [|s row] HL; cbn in HL; try discriminate; auto.
  cbn [combine length seq map]. f_equal. rewrite <- seq_shift, map_map. apply IH. lia.
Qed.
Definition inds_of (m : mapper I) (n : nat) (allowed : option (list I)) : list nat :=
  match allowed with None => seq 0 n | Some a => index_list eq_dec m a end.
Lemma inds_range ids m allowed : make_mapper eq_dec ids = Ok m -> Forall (fun i => i < length ids) (inds_of m (length ids) allowed).
Proof.
  intros HM. destruct allowed as [a|]; [now apply (index_list_range eq_dec ids m)|].
  apply Forall_forall. intros i Hi. apply in_seq in Hi. lia.
Qed.
Lemma foffered_inds ids m row d allowed : make_mapper eq_dec ids = Ok m -> length row = length ids ->
  foffered eq_dec ids row allowed = map (fwith ids d row) (inds_of m (length ids) allowed).
Proof.
  intros HM HL. destruct allowed as [a|]; [|cbn; rewrite <- HL; now apply fcombine_seq].
  cbn [foffered inds_of]. rewrite (index_list_spec eq_dec ids m HM). destruct (mapper_find eq_dec ids m d HM) as (_ & HN & _).
  rewrite (fcombine_seq ids row d), HL by auto.
  induction a as [|x a IH]; cbn [flat_map filter map]; auto. rewrite IH.
  assert (G : filter (fun p : I * fscore => if eq_dec (fst p) x then true else false) (map (fwith ids d row) (seq 0 (length ids)))
              = if in_dec eq_dec x ids then [fwith ids d row (ipos eq_dec ids x)] else []).
  { clear IH. destruct (in_dec eq_dec x ids) as [Hx|Hx].
    - destruct (ipos_nth eq_dec ids x d Hx) as [H1 H2]. set (k := ipos eq_dec ids x) in *.
      assert (E : forall i, i < length ids -> (if eq_dec (nth i ids d) x then true else false) = (i =? k)).
      { intros i Hi. destruct (eq_dec (nth i ids d) x) as [E|E].
        - symmetry. apply Nat.eqb_eq. apply (proj1 (NoDup_nth ids d) HN); auto. congruence.
        - symmetry. apply Nat.eqb_neq. intros ->. contradiction. }
      assert (S : forall s n, s + n <= length ids -> filter (fun p : I * fscore => if eq_dec (fst p) x then true else false) (map (fwith ids d row) (seq s n))
                  = if (s <=? k) && (k <? s + n) then [fwith ids d row k] else []).
      { intros s n; revert s; induction n as [|n IHn]; intros s Hs; cbn [seq map filter].
        - destruct (Nat.leb_spec s k), (Nat.ltb_spec k (s + 0)); cbn; auto; lia.
        - cbn [fst fwith]. rewrite E by lia. rewrite IHn by lia. destruct (Nat.eqb_spec s k) as [->|Hn].
          + destruct (Nat.leb_spec (S k) k); [lia|]. destruct (Nat.leb_spec k k); [|lia]. destruct (Nat.ltb_spec k (k + S n)); [|lia]. reflexivity.
          + destruct (Nat.leb_spec s k), (Nat.leb_spec (S s) k), (Nat.ltb_spec k (s + S n)), (Nat.ltb_spec k (S s + n)); cbn; auto; lia. }
      rewrite S by lia. rewrite (proj2 (Nat.ltb_lt k (0 + length ids))) by lia. reflexivity.
    - apply filter_none. apply Forall_forall. intros p Hp. apply in_map_iff in Hp as (i & <- & Hi). apply in_seq in Hi. cbn.
      destruct (eq_dec (nth i ids d) x) as [<-|]; auto. exfalso. apply Hx, nth_In. lia. }
  rewrite G. destruct (in_dec eq_dec x ids); reflexivity.
Qed.
Lemma offered_unnan ids m row allowed : make_mapper eq_dec ids = Ok m -> length row = length ids ->
  offered eq_dec ids (map unnan row) allowed = map (fun p => (fst p, unnan (snd p))) (foffered eq_dec ids row allowed).
Proof.
  intros HM HL. assert (Hc : combine ids (map unnan row) = map (fun p => (fst p, unnan (snd p))) (combine ids row)).
  { clear. revert row. induction ids as [|x l IH]; intros [|s row]; cbn; auto. now rewrite IH. }
  destruct allowed as [a|]; cbn [offered foffered]; auto. rewrite Hc. clear Hc. generalize (combine ids row) as c. intros c.
  induction a as [|x a IH]; cbn [flat_map]; auto. rewrite IH, map_app. f_equal. clear.
  induction c as [|p c IH]; cbn [map filter]; auto. cbn [fst]. destruct (eq_dec (fst p) x); cbn [map]; now rewrite IH.
Qed.

(** ** The single-user call *)
Definition keep (forbidden : option (list I)) (p : I * fscore) : bool := negb (fisinf (snd p)) && negb (banned eq_dec forbidden (fst p)).
Lemma frec_loop_spec ids row cutoff forbidden d inds : length ids = length row -> Forall (fun i => i < length row) inds -> forall acc,
  (Z.of_nat (length acc) < Z.max 1 cutoff)%Z ->
  frec_loop eq_dec ids row cutoff forbidden inds acc =
  Ok (acc ++ firstn (Z.to_nat (Z.max 1 cutoff) - length acc) (filter (keep forbidden) (map (fwith ids d row) inds))).
Proof.
  intros HL. induction inds as [|i inds IH]; intros HF acc Hacc; cbn [frec_loop map filter].
  - rewrite firstn_nil, app_nil_r. reflexivity.
  - inversion HF as [|? ? Hi HF']; subst.
    rewrite (nth_error_nth' row NaN Hi), (nth_error_nth' ids d) by lia. unfold keep at 1. cbn [fwith snd fst].
    assert (Eb : match forbidden with Some f => id_mem eq_dec (nth i ids d) f | None => false end = banned eq_dec forbidden (nth i ids d)).
    { unfold banned. destruct forbidden as [f|]; auto. unfold id_mem. destruct (in_dec eq_dec (nth i ids d) f) as [H|H].
      - apply existsb_exists. exists (nth i ids d). split; auto. now destruct (eq_dec _ _).
      - destruct (existsb _ f) eqn:E; auto. apply existsb_exists in E as (y & Hy & E). destruct (eq_dec _ y) as [<-|]; [contradiction|discriminate]. }
    rewrite Eb. destruct (fisinf (nth i row NaN)) eqn:Es; cbn [negb andb]; [now apply IH|].
    destruct (banned eq_dec forbidden (nth i ids d)) eqn:Eb'; cbn [negb]; [now apply IH|].
    change (fwith ids d row i) with (nth i ids d, nth i row NaN).
    assert (Hlen : length (acc ++ [(nth i ids d, nth i row NaN)]) = S (length acc)) by (rewrite app_length; cbn; lia).
    destruct (Z.leb_spec cutoff (Z.of_nat (length (acc ++ [(nth i ids d, nth i row NaN)])))) as [Hc|Hc].
    + rewrite Hlen in Hc. replace (Z.to_nat (Z.max 1 cutoff) - length acc) with 1 by lia. cbn. reflexivity.
    + rewrite IH by (auto; lia). rewrite <- app_assoc. cbn [app]. rewrite Hlen.
      replace (Z.to_nat (Z.max 1 cutoff) - length acc) with (S (Z.to_nat (Z.max 1 cutoff) - S (length acc))) by lia.
      reflexivity.
Qed.

(** A descending list has its NaN in front. *)
Lemma nan_split (l : list (I * fscore)) : StronglySorted (fun a b => fle (snd b) (snd a)) l ->
  l = filter (fun p => is_nan (snd p)) l ++ filter (fun p => negb (is_nan (snd p))) l.
Proof.
  induction 1 as [|a l HS IH HF]; auto. cbn [filter]. destruct (snd a) as [s|] eqn:E; cbn [is_nan negb app].
  - assert (HN : Forall (fun p => is_nan (snd p) = false) l).
    { rewrite Forall_forall in *. intros p Hp. specialize (HF p Hp). cbn beta in HF. destruct (snd p); [reflexivity|destruct HF]. }
    rewrite (filter_none _ l HN). cbn. f_equal. symmetry. apply filter_id. eapply Forall_impl; [|exact HN]. cbn. intros p ->. reflexivity.
  - f_equal. exact IH.
Qed.
Lemma single_nan argsort ids m row cutoff allowed forbidden : fsorts argsort ->
  make_mapper eq_dec ids = Ok m -> length row = length ids ->
  exists l1 l2 rest,
    frecommended_items eq_dec argsort m row cutoff allowed forbidden = Ok (l1 ++ map (fun p => (fst p, Num (snd p))) l2) /\
    Permutation (l1 ++ rest) (pool_nan eq_dec ids row allowed forbidden) /\
    length l1 = min (Z.to_nat (Z.max 1 cutoff)) (length (pool_nan eq_dec ids row allowed forbidden)) /\
    best (pool_finite eq_dec ids (map unnan row) allowed forbidden)
         (Z.to_nat (Z.max 1 cutoff) - length (pool_nan eq_dec ids row allowed forbidden)) l2.
Proof.
  intros HA HM HL. unfold frecommended_items.
  assert (Hids : mp_ids m = ids).
  { unfold make_mapper in HM. destruct (_ =? _); [|discriminate]. now injection HM as <-. }
  rewrite Hids, HL, Nat.eqb_refl. cbn [negb]. set (k := Z.to_nat (Z.max 1 cutoff)).
  assert (Hd : ids = [] \/ exists d : I, True) by (destruct ids as [|y]; [now left|right; now exists y]).
  assert (G : forall inds, Permutation inds (inds_of m (length ids) allowed) ->
     StronglySorted (fun a b => fle (nth b row NaN) (nth a row NaN)) inds ->
     exists l1 l2 rest, frec_loop eq_dec ids row cutoff forbidden inds [] = Ok (l1 ++ map (fun p => (fst p, Num (snd p))) l2) /\
     Permutation (l1 ++ rest) (pool_nan eq_dec ids row allowed forbidden) /\
     length l1 = min k (length (pool_nan eq_dec ids row allowed forbidden)) /\
     best (pool_finite eq_dec ids (map unnan row) allowed forbidden) (k - length (pool_nan eq_dec ids row allowed forbidden)) l2).
  { intros inds HP HS. pose proof (inds_range ids m allowed HM) as HR. destruct Hd as [Hd|(d & _)].
    - assert (Ei : inds_of m (length ids) allowed = []).
      { rewrite Hd in HR |- *. destruct HR as [|i l Hi _]; [reflexivity|cbn in Hi; lia]. }
      rewrite Ei in HP. apply Permutation_sym, Permutation_nil in HP. subst inds. exists [], [], []. cbn [frec_loop app map].
      assert (Eo : foffered eq_dec ids row allowed = []).
      { rewrite Hd. destruct allowed as [a|]; cbn; auto. clear. induction a; cbn; auto. }
      unfold pool_nan, pool_finite. rewrite (offered_unnan ids m row allowed HM HL), Eo. cbn. split; auto. split; auto. split; [lia|].
      exists []. split; [constructor|]. split; [constructor|]. split; [cbn; lia|]. intros ? ? [].
    - rewrite (frec_loop_spec ids row cutoff forbidden d inds).
      2:{ auto. }
      2:{ rewrite Forall_forall in *. intros i Hi. rewrite HL. apply HR. now apply (Permutation_in _ HP). }
      2:{ cbn; lia. }
      cbn [app length]. rewrite Nat.sub_0_r. fold k.
      set (L := filter (keep forbidden) (map (fwith ids d row) inds)).
      assert (SL : StronglySorted (fun a b => fle (snd b) (snd a)) L) by (apply sorted_filter, sorted_map; exact HS).
      assert (PO : Permutation (map (fwith ids d row) inds) (foffered eq_dec ids row allowed)).
      { rewrite (foffered_inds ids m row d allowed HM HL). now apply Permutation_map. }
      set (N := filter (fun p => is_nan (snd p)) L). set (F := filter (fun p => negb (is_nan (snd p))) L).
      assert (EL : L = N ++ F) by now apply nan_split.
      assert (PN : Permutation N (pool_nan eq_dec ids row allowed forbidden)).
      { unfold N, L, pool_nan. rewrite <- (filter_perm _ _ _ PO). generalize (map (fwith ids d row) inds). intros l. clear.
        induction l as [|p l IH]; cbn [filter]; auto. unfold keep at 1. destruct (snd p) as [s|] eqn:E; cbn [fisinf is_nan negb andb].
        - destruct (negb (isinf s) && negb (banned eq_dec forbidden (fst p))); cbn [filter]; [rewrite E; cbn [is_nan]|]; exact IH.
        - destruct (banned eq_dec forbidden (fst p)); cbn [negb]; [exact IH|]. cbn [filter]. rewrite E. cbn [is_nan]. now constructor. }
      set (F' := map (fun p : I * fscore => (fst p, unnan (snd p))) F).
      assert (EF : F = map (fun p : I * score => (fst p, Num (snd p))) F').
      { unfold F'. rewrite map_map. rewrite <- (map_id F) at 1. apply map_ext_in. intros p Hp. unfold F in Hp. apply filter_In in Hp as [_ Hp].
        destruct p as [x [s|]]; [reflexivity|discriminate]. }
      assert (PF : Permutation F' (pool_finite eq_dec ids (map unnan row) allowed forbidden)).
      { unfold pool_finite. rewrite (offered_unnan ids m row allowed HM HL).
        eapply Permutation_trans; [|apply filter_perm, Permutation_map; exact PO].
        unfold F', F, L. generalize (map (fwith ids d row) inds). intros l. clear.
        induction l as [|p l IH]; cbn [filter map]; auto. unfold keep at 1. cbn [snd fst].
        destruct (snd p) as [[|q|]|] eqn:E; cbn [fisinf isinf negb andb unnan]; try exact IH.
        - destruct (banned eq_dec forbidden (fst p)); cbn [negb]; [exact IH|]. cbn [filter]. rewrite E. cbn [is_nan negb map]. rewrite E. cbn [unnan]. now constructor.
        - destruct (banned eq_dec forbidden (fst p)); cbn [negb]; [exact IH|]. cbn [filter]. rewrite E. cbn [is_nan negb]. exact IH. }
      rewrite <- (Permutation_length PN).
      exists (firstn k N), (firstn (k - length N) F'), (skipn k N). split; [|split; [|split]].
      + rewrite EL, firstn_app. do 2 f_equal. rewrite EF at 1. now rewrite firstn_map.
      + now rewrite firstn_skipn.
      + apply firstn_length.
      + apply firstn_best; auto. unfold F'. apply sorted_map. cbn [snd].
        rewrite EL in SL. apply strongly_sorted_app_inv in SL as (_ & SF & _). eapply sorted_impl_in; [|exact SF]. cbn beta.
        intros a b Ha Hb H. unfold F in Ha, Hb. apply filter_In in Ha as [_ Ha], Hb as [_ Hb].
        destruct (snd a), (snd b); try discriminate. cbn in *. now apply scmp_notgt_notlt. }
  destruct allowed as [a|].
  - set (inds := index_list eq_dec m a). set (v := map (fun i => nth i row NaN) inds).
    destruct (HA v) as [HP HS]. apply G.
    + cbn [inds_of]. fold inds. apply Permutation_trans with (map (fun k => nth k inds 0) (seq 0 (length v))).
      * apply Permutation_map. rewrite <- Permutation_rev. exact HP.
      * assert (E : map (fun k => nth k inds 0) (seq 0 (length v)) = inds); [|rewrite E; auto].
        unfold v. rewrite map_length. apply (nth_ext _ _ 0 0); [now rewrite map_length, seq_length|].
        intros j Hj. rewrite map_length, seq_length in Hj.
        rewrite (nth_indep _ 0 (nth 0 inds 0)) by (now rewrite map_length, seq_length).
        rewrite (map_nth (fun k => nth k inds 0)), seq_nth; auto.
    + apply sorted_map. apply sorted_rev in HS. eapply sorted_impl_in; [|exact HS]. cbn beta.
      intros p q Hp Hq H. apply in_rev in Hp, Hq. apply (Permutation_in _ HP) in Hp, Hq. apply in_seq in Hp, Hq.
      unfold v in Hp, Hq, H. rewrite map_length in Hp, Hq.
      set (f := fun i => nth i row NaN) in H.
      assert (E : forall j, j < length inds -> nth j (map f inds) NaN = f (nth j inds 0)).
      { intros j Hj. rewrite (nth_indep _ NaN (f 0)) by (now rewrite map_length). apply map_nth. }
      rewrite !E in H by lia. exact H.
  - destruct (HA row) as [HP HS]. apply G.
    + cbn [inds_of]. rewrite <- HL. rewrite <- Permutation_rev. exact HP.
    + apply sorted_rev in HS. exact HS.
Qed.

(** ** The batch call *)
Lemma fset_neginf_length row cols : length (fset_neginf row cols) = length row.
Proof. unfold fset_neginf. revert row; induction cols as [|c cols IH]; intros row; cbn; auto. rewrite IH. apply update_nth_length. Qed.
Lemma fset_neginf_nth row cols i : Forall (fun c => c < length row) cols ->
  nth i (fset_neginf row cols) NaN = if existsb (Nat.eqb i) cols then Num NegInf else nth i row NaN.
Proof.
  unfold fset_neginf. revert row; induction cols as [|c cols IH]; intros row H; cbn; auto.
  inversion H as [|? ? Hc H']; subst. rewrite IH by (rewrite update_nth_length; auto). rewrite nth_update_nth by auto.
  destruct (i =? c); cbn; auto. now destruct (existsb _ cols).
Qed.
Lemma map_update_nth {X Y} (f : X -> Y) (l : list X) k x : map f (update_nth l k x) = update_nth (map f l) k (f x).
Proof. revert k; induction l as [|a l IH]; intros [|k]; cbn; auto. now rewrite IH. Qed.
Lemma unnan_set row cols : map unnan (fset_neginf row cols) = set_neginf (map unnan row) cols.
Proof. unfold fset_neginf, set_neginf. revert row; induction cols as [|c cols IH]; intros row; cbn; auto. now rewrite IH, map_update_nth. Qed.

Definition blanked (m : mapper I) (row : list fscore) (forbidden : option (list I)) : list fscore :=
  match forbidden with None => row | Some f => fset_neginf row (index_list eq_dec m f) end.
Lemma blanked_nth ids m row d forbidden i : make_mapper eq_dec ids = Ok m -> length row = length ids -> i < length ids ->
  nth i (blanked m row forbidden) NaN = if banned eq_dec forbidden (nth i ids d) then Num NegInf else nth i row NaN.
Proof.
  intros HM HL Hi. destruct (mapper_find eq_dec ids m d HM) as (_ & HN & _). unfold blanked, banned. destruct forbidden as [f|]; auto.
  rewrite fset_neginf_nth by (rewrite HL; now apply (index_list_range eq_dec ids m)).
  replace (existsb (Nat.eqb i) (index_list eq_dec m f)) with (if in_dec eq_dec (nth i ids d) f then true else false).
  { destruct (in_dec eq_dec (nth i ids d) f); reflexivity. }
  rewrite (index_list_spec eq_dec ids m HM). destruct (in_dec eq_dec (nth i ids d) f) as [H|H].
  - symmetry. apply existsb_exists. exists i. split; [|apply Nat.eqb_refl]. apply in_map_iff. exists (nth i ids d).
    assert (Hin : In (nth i ids d) ids) by now apply nth_In. split.
    + destruct (ipos_nth eq_dec ids (nth i ids d) d Hin) as [H1 H2]. apply (proj1 (NoDup_nth ids d) HN); auto.
    + apply filter_In. split; auto. now destruct (in_dec eq_dec (nth i ids d) ids).
  - symmetry. destruct (existsb _ _) eqn:E; auto. apply existsb_exists in E as (j & Hj & E). apply Nat.eqb_eq in E. subst j.
    apply in_map_iff in Hj as (x & Hx & Hin). apply filter_In in Hin as [Hin Hx']. destruct (in_dec eq_dec x ids) as [Hxi|]; [|discriminate].
    exfalso. apply H. destruct (ipos_nth eq_dec ids x d Hxi) as [_ H2]. rewrite Hx in H2. now rewrite H2.
Qed.
Definition cands (fl : score -> score) (m : mapper I) (n : nat) (row : list fscore) (allowed forbidden : option (list I)) : list (nat * fscore) :=
  map (fun i => (i, ffl fl (nth i (blanked m row forbidden) NaN))) (inds_of m n allowed).
Lemma inds_nil m allowed : make_mapper eq_dec [] = Ok m -> inds_of m 0 allowed = [].
Proof. intros HM. pose proof (inds_range [] m allowed HM) as HR. cbn [length] in HR. destruct HR as [|i l Hi _]; [reflexivity|lia]. Qed.
Lemma foffered_nil row allowed : foffered eq_dec [] row allowed = [].
Proof. destruct allowed as [a|]; cbn; auto. induction a; cbn; auto. Qed.
Lemma cands_compared fl ids m row allowed forbidden : fl NegInf = NegInf -> make_mapper eq_dec ids = Ok m -> length row = length ids ->
  map snd (cands fl m (length ids) row allowed forbidden) = compared eq_dec fl ids row allowed forbidden.
Proof.
  intros Hfl HM HL. destruct ids as [|d ids0].
  - unfold cands, compared. cbn [length]. rewrite (inds_nil m allowed HM), foffered_nil. reflexivity.
  - set (ids := d :: ids0) in *. unfold cands, compared. rewrite (foffered_inds ids m row d allowed HM HL), !map_map.
    apply map_ext_in. intros i Hi. pose proof (inds_range ids m allowed HM) as HR. rewrite Forall_forall in HR.
    cbn [snd fst fwith]. rewrite (blanked_nth ids m row d forbidden i HM HL (HR i Hi)).
    destruct (banned eq_dec forbidden (nth i ids d)); auto. cbn. now rewrite Hfl.
Qed.

Definition numpsort (psort : nat -> list (nat * fscore) -> list (nat * fscore)) (k : nat) (l : list (nat * score)) : list (nat * score) :=
  map (fun p => (fst p, unnan (snd p))) (psort k (map (fun p => (fst p, Num (snd p))) l)).
Lemma no_nan_weak (l : list (nat * fscore)) : ~ In NaN (map snd l) -> strict_weak fgreater l = true.
Proof. intros H. destruct (strict_weak fgreater l) eqn:E; auto. apply mixed_iff in E. destruct E as [E _]. contradiction. Qed.
Lemma numbered (l : list (nat * fscore)) : ~ In NaN (map snd l) ->
  map (fun p => (fst p, Num (snd p))) (map (fun p : nat * fscore => (fst p, unnan (snd p))) l) = l.
Proof.
  induction l as [|[i [s|]] l IH]; cbn; intros H; auto.
  - rewrite IH; auto.
  - exfalso. auto.
Qed.
Lemma num_no_nan (l : list (nat * score)) : ~ In NaN (map snd (map (fun p => (fst p, Num (snd p))) l)).
Proof. rewrite map_map. cbn. intros H. apply in_map_iff in H as (? & H & _). discriminate. Qed.
Lemma numpsort_ok psort : fpartially_sorts psort -> partially_sorts (numpsort psort).
Proof.
  intros HP k l. pose proof (num_no_nan l) as HN. destruct (HP k _ (no_nan_weak _ HN)) as (P1 & P2 & P3).
  set (r := psort k (map (fun p => (fst p, Num (snd p))) l)) in *.
  assert (HR : forall p, In p r -> exists q, snd p = Num q).
  { intros p Hp. apply (Permutation_in _ P1) in Hp. apply in_map_iff in Hp as (q & <- & _). cbn. eexists; reflexivity. }
  unfold numpsort. fold r. split; [|split].
  - apply (Permutation_map (fun p : nat * fscore => (fst p, unnan (snd p)))) in P1. rewrite map_map in P1. cbn in P1.
    replace (map (fun x : nat * score => (fst x, snd x)) l) with l in P1; auto. rewrite <- (map_id l) at 1. apply map_ext. now intros [].
  - rewrite firstn_map. apply sorted_map. cbn [snd]. eapply sorted_impl_in; [|exact P2]. cbn beta. intros a b Ha Hb H.
    apply firstn_in in Ha, Hb. destruct (HR a Ha) as (qa & Ea), (HR b Hb) as (qb & Eb). rewrite Ea, Eb in *. cbn in *. now apply scmp_notgt_notlt.
  - rewrite firstn_map, skipn_map. intros a b Ha Hb. apply in_map_iff in Ha as (a' & <- & Ha), Hb as (b' & <- & Hb). cbn [snd].
    pose proof (P3 a' b' Ha Hb) as H. apply firstn_in in Ha. apply skipn_in in Hb. destruct (HR a' Ha) as (qa & Ea), (HR b' Hb) as (qb & Eb).
    rewrite Ea, Eb in *. cbn in *. now apply scmp_notgt_notlt.
Qed.
Lemma ftake_num cutoff (l : list (nat * score)) : forall k,
  ftake_loop cutoff k (map (fun p => (fst p, Num (snd p))) l) = map (fun p => (fst p, Num (snd p))) (take_loop cutoff k l).
Proof.
  induction l as [|[i s] l IH]; intros k; cbn; auto. destruct (cutoff <=? k); auto. destruct s; cbn; auto; now rewrite IH.
Qed.
Lemma ftake_facts cutoff (l : list (nat * fscore)) : forall k, length (ftake_loop cutoff k l) <= cutoff - k /\
  forall p, In p (ftake_loop cutoff k l) -> In p l /\ snd p <> Num NegInf.
Proof.
  induction l as [|p l IH]; intros k; cbn; [split; [lia|intros ? []]|]. destruct (Nat.leb_spec cutoff k); cbn; [split; [lia|intros ? []]|].
  destruct (fnot_neginf (snd p)) eqn:E; cbn; [|split; [lia|intros ? []]]. destruct (IH (S k)) as [H1 H2]. split; [lia|].
  intros q [<-|Hq]; [split; auto; intros E'; now rewrite E' in E|]. destruct (H2 q Hq). auto.
Qed.

Lemma row_result fl psort ids m row cutoff allowed forbidden : fl NegInf = NegInf -> fpartially_sorts psort ->
  make_mapper eq_dec ids = Ok m -> length row = length ids ->
  let cand := cands fl m (length ids) row allowed forbidden in
  strict_weak fgreater cand = true ->
  exists r, fto_ids ids (ftake_loop cutoff 0 (psort (min cutoff (length cand)) cand)) = Ok r /\
    length r <= cutoff /\
    (forall x s, In (x, s) r -> s <> Num NegInf /\ banned eq_dec forbidden x = false /\ exists s0, In (x, s0) (foffered eq_dec ids row allowed) /\ s = ffl fl s0) /\
    (~ In NaN (compared eq_dec fl ids row allowed forbidden) ->
       exists r0, r = map (fun p => (fst p, Num (snd p))) r0 /\ best (pool_batch eq_dec fl ids (map unnan row) allowed forbidden) cutoff r0).
Proof.
  intros Hfl HP HM HL cand HW. destruct (HP (min cutoff (length cand)) cand HW) as (P1 & _).
  destruct ids as [|d ids0].
  { assert (E : cand = []) by (unfold cand, cands; cbn [length]; now rewrite (inds_nil m allowed HM)).
    rewrite E in *. apply Permutation_sym, Permutation_nil in P1. rewrite P1. exists []. cbn. split; auto. split; [lia|]. split; [intros ? ? []|].
    intros _. exists []. split; auto. exists []. assert (E0 : pool_batch eq_dec fl [] (map unnan row) allowed forbidden = []).
    { unfold pool_batch, offered. destruct allowed as [a|]; cbn; auto. clear. induction a; cbn; auto. }
    rewrite E0. split; [constructor|]. split; [constructor|]. split; [cbn; lia|]. intros ? ? []. }
  set (ids := d :: ids0) in *. pose proof (inds_range ids m allowed HM) as HR. rewrite Forall_forall in HR.
  destruct (ftake_facts cutoff (psort (min cutoff (length cand)) cand) 0) as [T1 T2]. set (t := ftake_loop cutoff 0 _) in *.
  assert (HT : forall p, In p t -> fst p < length ids /\ In (fst p) (inds_of m (length ids) allowed) /\ snd p = ffl fl (nth (fst p) (blanked m row forbidden) NaN)).
  { intros p Hp. apply T2 in Hp as [Hp _]. apply (Permutation_in _ P1) in Hp. apply in_map_iff in Hp as (i & <- & Hi). cbn. auto. }
  exists (map (fun p => (nth (fst p) ids d, snd p)) t). split; [|split; [|split]].
  - unfold fto_ids. apply oall_map_ok. intros p Hp. now rewrite (nth_error_nth' ids d) by apply (HT p Hp).
  - rewrite map_length. lia.
  - intros x s Hx. apply in_map_iff in Hx as (p & E & Hp). assert (Ex : x = nth (fst p) ids d) by congruence. assert (Ess : s = snd p) by congruence. clear E. subst x s. destruct (HT p Hp) as (H1 & H2 & H3). destruct (T2 p Hp) as [_ H4].
    rewrite (blanked_nth ids m row d forbidden _ HM HL H1) in H3. split; auto. destruct (banned eq_dec forbidden (nth (fst p) ids d)).
    { exfalso. apply H4. rewrite H3. cbn. now rewrite Hfl. }
    split; [reflexivity|]. exists (nth (fst p) row NaN). split; auto. rewrite (foffered_inds ids m row d allowed HM HL). apply in_map_iff. exists (fst p). auto.
  - intros HN. rewrite <- (cands_compared fl ids m row allowed forbidden Hfl HM HL) in HN. fold cand in HN.
    set (c := map (fun p : nat * fscore => (fst p, unnan (snd p))) cand).
    assert (Ec : cand = map (fun p => (fst p, Num (snd p))) c) by (symmetry; now apply numbered).
    assert (Es : psort (min cutoff (length cand)) cand = map (fun p => (fst p, Num (snd p))) (numpsort psort (min cutoff (length c)) c)).
    { unfold numpsort. replace (length c) with (length cand) by (unfold c; now rewrite map_length). rewrite <- Ec.
      symmetry. apply numbered. intros H. apply HN. now apply (Permutation_in _ (Permutation_map snd P1)). }
    assert (Et : t = map (fun p => (fst p, Num (snd p))) (take_loop cutoff 0 (numpsort psort (min cutoff (length c)) c))) by (unfold t; now rewrite Es, ftake_num).
    exists (map (fun p => (nth (fst p) ids d, snd p)) (take_loop cutoff 0 (numpsort psort (min cutoff (length c)) c))). split.
    { rewrite Et, !map_map. reflexivity. }
    pose proof (best_map (fun i => nth i ids d) _ _ _ (take_best (numpsort psort) c cutoff (numpsort_ok psort HP))) as TB.
    assert (HL' : length (map unnan row) = length ids) by now rewrite map_length.
    rewrite <- (batch_pool eq_dec fl ids m (map unnan row) d allowed forbidden Hfl HM HL').
    replace (map (fun i => (i, fl (nth i (match forbidden with Some f => set_neginf (map unnan row) (index_list eq_dec m f) | None => map unnan row end) NegInf)))
                 (match allowed with Some a => index_list eq_dec m a | None => seq 0 (length ids) end)) with c; [exact TB|].
    unfold c, cand, cands. rewrite map_map. change (inds_of m (length ids) allowed) with (match allowed with Some a => index_list eq_dec m a | None => seq 0 (length ids) end).
    apply map_ext. intros i. cbn [fst snd]. f_equal.
    replace (match forbidden with Some f => set_neginf (map unnan row) (index_list eq_dec m f) | None => map unnan row end) with (map unnan (blanked m row forbidden)).
    2:{ unfold blanked. destruct forbidden; auto. apply unnan_set. }
    change NegInf with (unnan NaN) at 1. rewrite map_nth. destruct (nth i (blanked m row forbidden) NaN); cbn; auto.
Qed.

Lemma oall_dich {X Y} (f : X -> outcome Y) l : (forall x, In x l -> f x = UB \/ exists y, f x = Ok y) ->
  ((exists x, In x l /\ f x = UB) /\ oall (map f l) = UB) \/ (exists r, oall (map f l) = Ok r).
Proof.
  induction l as [|x l IH]; intros H; cbn [map oall]; [right; eauto|]. destruct (H x (or_introl eq_refl)) as [E|(y & E)]; rewrite E; cbn [obind].
  - left. split; auto. exists x. cbn. auto.
  - destruct IH as [((z & Hz & Ez) & ->)|(r & ->)]; cbn; [intros; apply H; now right| |]; [left|right; eauto]. split; auto. exists z. auto.
Qed.
Lemma batch_nan fl psort ids m rows cutoff allowed per_user forbidden : fl NegInf = NegInf -> fpartially_sorts psort ->
  make_mapper eq_dec ids = Ok m -> Forall (fun r => length r = length ids) rows ->
  (forall p, per_user = Some p -> length p = length rows) -> (forall f, forbidden = Some f -> length f = length rows) ->
  let shown u := compared eq_dec fl ids (nth u rows []) (batch_allowed allowed per_user u) (batch_forbidden forbidden u) in
  let result := frecommended_items_batch eq_dec fl psort m (length ids) rows cutoff allowed per_user forbidden in
  ((exists u, u < length rows /\ mixed (shown u)) /\ result = UB) \/
  ((forall u, u < length rows -> ~ mixed (shown u)) /\ exists l, result = Ok l /\ length l = length rows /\
   forall u, u < length rows ->
     length (nth u l []) <= cutoff /\
     (forall x s, In (x, s) (nth u l []) -> s <> Num NegInf /\ banned eq_dec (batch_forbidden forbidden u) x = false /\
        exists s0, In (x, s0) (foffered eq_dec ids (nth u rows []) (batch_allowed allowed per_user u)) /\ s = ffl fl s0) /\
     (~ In NaN (shown u) -> exists l0, nth u l [] = map (fun p => (fst p, Num (snd p))) l0 /\
        best (pool_batch eq_dec fl ids (map unnan (nth u rows [])) (batch_allowed allowed per_user u) (batch_forbidden forbidden u)) cutoff l0)).
Proof.
  intros Hfl HP HM HR Hp Hf shown result. unfold result, frecommended_items_batch.
  assert (Hids : mp_ids m = ids).
  { unfold make_mapper in HM. destruct (_ =? _); [|discriminate]. now injection HM as <-. }
  rewrite Hids, Nat.eqb_refl. cbn [negb].
  replace (match forbidden with Some f => negb (length f =? length rows) | None => false end) with false.
  2:{ destruct forbidden as [f|]; auto. rewrite (Hf f) by auto. now rewrite Nat.eqb_refl. }
  replace (match per_user with Some p => negb (length p =? length rows) | None => false end) with false.
  2:{ destruct per_user as [p|]; auto. rewrite (Hp p) by auto. now rewrite Nat.eqb_refl. }
  set (rows' := match forbidden with None => rows | Some f => _ end).
  set (al := match per_user with Some p => map (index_list eq_dec m) p | None => match allowed with Some a => [index_list eq_dec m a] | None => [] end end).
  assert (Er : forall u, u < length rows -> nth u rows' [] = blanked m (nth u rows []) (batch_forbidden forbidden u)).
  { intros u Hu. unfold rows', blanked, batch_forbidden. destruct forbidden as [f|]; cbn [option_map]; auto.
    set (g := fun u => fset_neginf (nth u rows []) (index_list eq_dec m (nth u f []))).
    rewrite (nth_indep _ [] (g 0)) by (now rewrite map_length, seq_length). rewrite (map_nth g), seq_nth by auto. reflexivity. }
  assert (EF : forall a, filter (fun i => i <? length ids) (index_list eq_dec m a) = index_list eq_dec m a).
  { intros a. apply filter_id. eapply Forall_impl; [|exact (index_list_range eq_dec ids m a HM)]. intros i Hi. now apply Nat.ltb_lt. }
  set (cd := fun u => cands fl m (length ids) (nth u rows []) (batch_allowed allowed per_user u) (batch_forbidden forbidden u)).
  assert (Ec : forall u, u < length rows -> fcandidates fl (length ids) (nth u rows' []) al u = Ok (cd u)).
  { intros u Hu. rewrite (Er u Hu). unfold cd, cands, fcandidates, al, batch_allowed. destruct per_user as [p|].
    - assert (Hl : length p = length rows) by now apply Hp. destruct p as [|a [|b p']]; cbn [map].
      + cbn in Hl. lia.
      + cbn in Hl. assert (u = 0) as -> by lia. cbn [nth inds_of]. now rewrite EF.
      + change (index_list eq_dec m a :: index_list eq_dec m b :: map (index_list eq_dec m) p') with (map (index_list eq_dec m) (a :: b :: p')).
        rewrite (map_nth_error (index_list eq_dec m) u (a :: b :: p') (d := nth u (a :: b :: p') [])) by (apply nth_error_nth'; lia).
        cbn [inds_of]. now rewrite EF.
    - destruct allowed as [a|]; cbn [inds_of]; [now rewrite EF|reflexivity]. }
  assert (HRu : forall u, u < length rows -> length (nth u rows []) = length ids).
  { intros u Hu. rewrite Forall_forall in HR. apply HR, nth_In. exact Hu. }
  assert (Es : forall u, u < length rows -> map snd (cd u) = shown u).
  { intros u Hu. unfold cd, shown. apply cands_compared; auto. }
  set (tk := fun u => ftake_loop cutoff 0 (psort (min cutoff (length (cd u))) (cd u))).
  set (f := fun u => fretrieve_row fl psort (length ids) (nth u rows' []) al u cutoff).
  assert (Ef : forall u, u < length rows -> f u = if strict_weak fgreater (cd u) then Ok (tk u) else UB).
  { intros u Hu. unfold f, fretrieve_row. now rewrite (Ec u Hu). }
  destruct (oall_dich f (seq 0 (length rows))) as [((u & Hu & Eu) & ->)|(raw & Eraw)].
  { intros u Hu. apply in_seq in Hu. rewrite Ef by lia. destruct (strict_weak fgreater (cd u)); eauto. }
  - left. apply in_seq in Hu. split; auto. exists u. split; [lia|]. rewrite Ef in Eu by lia. destruct (strict_weak fgreater (cd u)) eqn:E; [discriminate|].
    apply mixed_iff in E. rewrite <- Es by lia. exact E.
  - right. rewrite Eraw. cbn [obind]. pose proof (oall_inv f _ _ Eraw) as FA.
    assert (SW : forall u, u < length rows -> strict_weak fgreater (cd u) = true).
    { intros u Hu. destruct (strict_weak fgreater (cd u)) eqn:E; auto. exfalso.
      assert (In u (seq 0 (length rows))) as Hin by (apply in_seq; lia).
      clear -FA Hin E Ef Hu. clearbody f. induction FA as [|x y l r Hxy FA IH]; [destruct Hin|]. destruct Hin as [->|Hin]; [|auto].
      cbn beta in Hxy. rewrite Ef in Hxy by auto. rewrite E in Hxy. discriminate. }
    split.
    { intros u Hu HX. specialize (SW u Hu). rewrite <- Es in HX by auto. apply mixed_iff in HX. congruence. }
    assert (Eraw' : raw = map tk (seq 0 (length rows))).
    { assert (oall (map f (seq 0 (length rows))) = Ok (map tk (seq 0 (length rows)))) as E0; [|congruence].
      apply oall_map_ok. intros u Hu. apply in_seq in Hu. rewrite Ef, SW by lia. reflexivity. }
    rewrite Eraw', map_map.
    set (RS := fun u => match fto_ids ids (tk u) with Ok r => r | _ => [] end).
    assert (ER : forall u, u < length rows -> exists r, fto_ids ids (tk u) = Ok r /\ RS u = r /\ length r <= cutoff /\
      (forall x s, In (x, s) r -> s <> Num NegInf /\ banned eq_dec (batch_forbidden forbidden u) x = false /\
         exists s0, In (x, s0) (foffered eq_dec ids (nth u rows []) (batch_allowed allowed per_user u)) /\ s = ffl fl s0) /\
      (~ In NaN (shown u) -> exists l0, r = map (fun p => (fst p, Num (snd p))) l0 /\
         best (pool_batch eq_dec fl ids (map unnan (nth u rows [])) (batch_allowed allowed per_user u) (batch_forbidden forbidden u)) cutoff l0)).
    { intros u Hu. destruct (row_result fl psort ids m (nth u rows []) cutoff (batch_allowed allowed per_user u) (batch_forbidden forbidden u) Hfl HP HM (HRu u Hu) (SW u Hu)) as (r & E1 & E2 & E3 & E4).
      exists r. split; [exact E1|]. split; [unfold RS, tk, cd; now rewrite E1|]. auto. }
    exists (map RS (seq 0 (length rows))). split; [|split].
    + apply oall_map_ok. intros u Hu. apply in_seq in Hu. destruct (ER u ltac:(lia)) as (r & E1 & E2 & _). now rewrite E2.
    + now rewrite map_length, seq_length.
    + intros u Hu. assert (En : nth u (map RS (seq 0 (length rows))) [] = RS u).
      { rewrite (nth_indep _ [] (RS 0)) by (now rewrite map_length, seq_length). rewrite (map_nth RS), seq_nth by auto. reflexivity. }
      rewrite En. destruct (ER u Hu) as (r & _ & E2 & E3). rewrite E2. exact E3.
Qed.
End Ids.

(** ** Evaluation *)
Definition inverted (l : list (fscore * nat)) : Prop :=
  exists p a j q b, In (Num p, a) l /\ In (NaN, j) l /\ In (Num q, b) l /\ a < j < b /\ scmp q p = Lt.
Lemma same_index (l : list (fscore * nat)) x y : NoDup (map snd l) -> In x l -> In y l -> snd x = snd y -> x = y.
Proof.
  induction l as [|z l IH]; cbn; intros HN Hx Hy E; [destruct Hx|]. inversion HN as [|? ? H1 H2]; subst.
  destruct Hx as [->|Hx], Hy as [->|Hy]; auto; exfalso; apply H1; [rewrite E|rewrite <- E]; now apply in_map.
Qed.
Lemma fpair_num p i q j : fpair_lt (Num p, i) (Num q, j) = pair_lt (p, i) (q, j).
Proof. reflexivity. Qed.
Lemma inverted_iff (l : list (fscore * nat)) : NoDup (map snd l) -> strict_weak fpair_lt l = false <-> inverted l.
Proof.
  intros HN. rewrite strict_weak_false. split.
  - intros [(a & Ha & H)|[(x & y & z & Hx & Hy & Hz & H1 & H2 & H3)|(x & y & z & Hx & Hy & Hz & H1 & H2 & H3)]].
    + destruct a as [[p|] i]; unfold fpair_lt in H; cbn [fst snd flt] in H; rewrite ?slt_irrefl, Nat.ltb_irrefl in H; discriminate.
    + destruct x as [[p|] i], y as [[q|] j], z as [[r|] k].
      * rewrite !fpair_num in *. exfalso. pose proof (pair_lt_negtrans _ _ _ H3 (pair_lt_asym _ _ H2)). congruence.
      * unfold fpair_lt in H1, H2, H3; cbn [fst snd flt] in *; cbn [negb orb andb] in *. apply Nat.ltb_lt in H2. apply Nat.ltb_ge in H3.
        assert (k <> i) by (intros ->; pose proof (same_index l _ _ HN Hx Hz eq_refl); discriminate).
        apply orb_true_iff in H1 as [H1|H1]; [|apply andb_true_iff in H1 as [_ H1]; apply Nat.ltb_lt in H1; lia].
        exists q, j, k, p, i. apply slt_lt in H1. repeat split; auto; lia.
      * unfold fpair_lt in H1, H2, H3; cbn [fst snd flt] in *; cbn [negb orb andb] in *. apply Nat.ltb_lt in H1, H2.
        apply orb_false_iff in H3 as [H3 H4]. apply andb_false_iff in H4 as [H4|H4]; [|apply Nat.ltb_ge in H4; lia].
        apply negb_false_iff, slt_lt in H4. exists p, i, j, r, k. repeat split; auto; lia.
      * unfold fpair_lt in H1, H2, H3; cbn [fst snd flt] in *; cbn [negb orb andb] in *. apply Nat.ltb_lt in H1, H2. apply Nat.ltb_ge in H3. lia.
      * unfold fpair_lt in H1, H2, H3; cbn [fst snd flt] in *; cbn [negb orb andb] in *. apply Nat.ltb_lt in H1. apply Nat.ltb_ge in H3.
        assert (k <> i) by (intros ->; pose proof (same_index l _ _ HN Hx Hz eq_refl); discriminate).
        apply orb_true_iff in H2 as [H2|H2]; [|apply andb_true_iff in H2 as [_ H2]; apply Nat.ltb_lt in H2; lia].
        exists r, k, i, q, j. apply slt_lt in H2. repeat split; auto; lia.
      * unfold fpair_lt in H1, H2, H3; cbn [fst snd flt] in *; cbn [negb orb andb] in *. apply Nat.ltb_lt in H1, H2. apply Nat.ltb_ge in H3. lia.
      * unfold fpair_lt in H1, H2, H3; cbn [fst snd flt] in *; cbn [negb orb andb] in *. apply Nat.ltb_lt in H1, H2. apply Nat.ltb_ge in H3. lia.
      * unfold fpair_lt in H1, H2, H3; cbn [fst snd flt] in *; cbn [negb orb andb] in *. apply Nat.ltb_lt in H1, H2. apply Nat.ltb_ge in H3. lia.
    + exfalso. assert (T : forall x y, In x l -> In y l -> tied fpair_lt x y = true -> x = y).
      { clear -HN. intros x y Hx Hy H. apply (same_index l); auto. unfold tied in H. apply andb_true_iff in H as [H1 H2]. apply negb_true_iff in H1, H2.
        unfold fpair_lt in *. apply orb_false_iff in H1 as [A1 B1], H2 as [A2 B2]. rewrite A1 in B2. rewrite A2 in B1. cbn in B1, B2.
        apply Nat.ltb_ge in B1, B2. lia. }
      rewrite (T x y Hx Hy H1) in H3. congruence.
  - intros (p & a & j & q & b & Hp & Hj & Hq & Hlt & Hs). right. left. exists (Num p, a), (NaN, j), (Num q, b). repeat split; auto.
    + unfold fpair_lt. cbn. apply Nat.ltb_lt. lia.
    + unfold fpair_lt. cbn. apply Nat.ltb_lt. lia.
    + rewrite fpair_num. unfold pair_lt. cbn [fst snd]. apply slt_lt in Hs. rewrite Hs. cbn. rewrite orb_false_r.
      destruct (slt p q) eqn:E; auto. pose proof (slt_trans _ _ _ Hs E) as X. now rewrite slt_irrefl in X.
Qed.
Lemma fcollect_ok data base items : Forall (fun i => base + i < length data) items ->
  fcollect data base items = Ok (map (fun i => (fneg (nth (base + i) data NaN), i)) (filter (fun i => fnot_neginf (nth (base + i) data NaN)) items)).
Proof.
  induction 1 as [|i items Hi _ IH]; cbn; auto. rewrite (nth_error_nth' data NaN Hi), IH. cbn. destruct (fnot_neginf _); reflexivity.
Qed.
Lemma fpush_num n_rec (l : list (score * nat)) : forall cnt, fpush_loop cnt n_rec (map (fun p => (Num (fst p), snd p)) l) = push_loop cnt n_rec l.
Proof. induction l as [|p l IH]; intros cnt; cbn; auto. f_equal. destruct (n_rec <=? S cnt); auto. Qed.
Lemma filter_nodup {X} (p : X -> bool) l : NoDup l -> NoDup (filter p l).
Proof. induction 1 as [|a l H1 H2 IH]; cbn; [constructor|]. destruct (p a); auto. constructor; auto. intros H. apply filter_In in H. tauto. Qed.
Lemma snd_pairs {X} (f : nat -> X) l : map snd (map (fun i => (f i, i)) l) = l.
Proof. rewrite map_map. cbn. apply map_id. Qed.

Lemma evaluation_nan_core rows n recs c data u uo cutoff : make_core rows n recs = Ok c -> n * u + n <= length data ->
  NoDup (offered_items c uo) -> Forall (fun i => i < n) (offered_items c uo) ->
  let sc i := nth (n * u + i) data NaN in
  let offered i := In i (offered_items c uo) in
  ((exists a j b p q, offered a /\ offered j /\ offered b /\ a < j < b /\ sc j = NaN /\ sc a = Num p /\ sc b = Num q /\ p <> NegInf /\ scmp p q = Lt)
     /\ franking c data u uo cutoff = UB) \/
  (~ (exists a j b p q, offered a /\ offered j /\ offered b /\ a < j < b /\ sc j = NaN /\ sc a = Num p /\ sc b = Num q /\ p <> NegInf /\ scmp p q = Lt)
     /\ (exists r, franking c data u uo cutoff = Ok r) /\
   ((forall i, offered i -> sc i <> NaN) -> franking c data u uo cutoff = ranking c (map unnan data) u uo cutoff)).
Proof.
  intros HC HD HN HI sc offered.
  assert (En : c_n_items c = n).
  { unfold make_core, check_arg in HC. destruct (_ || _); [|discriminate]. destruct (check_all_recommendable n recs); cbn in HC; try discriminate. now injection HC as <-. }
  assert (HF : Forall (fun i => n * u + i < length data) (offered_items c uo)) by (eapply Forall_impl; [|exact HI]; cbn; intros; lia).
  unfold franking. rewrite En, (fcollect_ok data (n * u) _ HF). cbn [obind].
  set (its := filter (fun i => fnot_neginf (nth (n * u + i) data NaN)) (offered_items c uo)).
  set (cand := map (fun i => (fneg (nth (n * u + i) data NaN), i)) its).
  assert (Hinv : inverted cand <-> exists a j b p q, offered a /\ offered j /\ offered b /\ a < j < b /\ sc j = NaN /\ sc a = Num p /\ sc b = Num q /\ p <> NegInf /\ scmp p q = Lt).
  { assert (HI' : forall s i, In (s, i) cand <-> offered i /\ fnot_neginf (sc i) = true /\ s = fneg (sc i)).
    { intros s i. unfold cand, its, offered. rewrite in_map_iff. split.
      - intros (k & E & Hk). injection E as <- <-. apply filter_In in Hk. unfold sc. tauto.
      - intros (H1 & H2 & ->). exists i. split; auto. apply filter_In. auto. }
    split.
    - intros (p & a & j & q & b & Hp & Hj & Hq & Hlt & Hs). apply HI' in Hp as (P1 & P2 & P3), Hj as (J1 & J2 & J3), Hq as (Q1 & Q2 & Q3).
      destruct (sc a) as [p'|] eqn:Ea; [|discriminate]. destruct (sc j) as [|] eqn:Ej; [discriminate|]. destruct (sc b) as [q'|] eqn:Eb; [|discriminate].
      injection P3 as ->. injection Q3 as ->. rewrite scmp_neg in Hs. exists a, j, b, p', q'. rewrite Ea, Ej, Eb. repeat split; auto; try lia.
      intros ->. discriminate.
    - intros (a & j & b & p & q & Oa & Oj & Ob & Hlt & Ej & Ea & Eb & Hp & Hs). exists (sneg p), a, j, (sneg q), b.
      rewrite !HI'. rewrite Ea, Ej, Eb. repeat split; auto; try lia.
      + cbn. destruct p; [congruence|reflexivity|reflexivity].
      + cbn. destruct p, q; try reflexivity; cbn in Hs; congruence.
      + now rewrite scmp_neg. }
  assert (NC : NoDup (map snd cand)) by (unfold cand; rewrite snd_pairs; now apply filter_nodup).
  rewrite <- Hinv. destruct (strict_weak fpair_lt cand) eqn:E.
  - right. split; [intros H; apply (inverted_iff cand NC) in H; congruence|]. split; [eauto|]. intros Hnum.
    unfold ranking. rewrite En.
    assert (Ecol : collect (map unnan data) (n * u) (offered_items c uo) = Ok (map (fun i => (sneg (unnan (sc i)), i)) its)).
    { unfold its. unfold offered in Hnum. clear -HF Hnum. revert HF Hnum. generalize (offered_items c uo). intros l.
      induction l as [|i l IH]; intros HF Hnum; cbn; auto. inversion HF as [|? ? Hi HF']; subst.
      rewrite (map_nth_error unnan _ _ (nth_error_nth' data NaN Hi)). rewrite IH by (auto; intros; apply Hnum; now right). cbn.
      fold (sc i). specialize (Hnum i (or_introl eq_refl)). destruct (sc i) as [s|] eqn:Es; [|congruence]. cbn [unnan fnot_neginf].
      destruct (not_neginf s); cbn; now rewrite ?Es. }
    rewrite Ecol. cbn. set (cs := map (fun i => (sneg (unnan (sc i)), i)) its).
    assert (Ecs : cand = map (fun p : score * nat => (Num (fst p), snd p)) cs).
    { unfold cand, cs. rewrite map_map. apply map_ext_in. intros i Hi. cbn [fst snd]. apply filter_In in Hi as [Hi _]. specialize (Hnum i Hi).
      fold (sc i). destruct (sc i) as [s|]; [reflexivity|congruence]. }
    rewrite Ecs. rewrite (sort_by_map (fun p : score * nat => (Num (fst p), snd p)) pair_lt fpair_lt cs) by reflexivity.
    rewrite fpush_num, map_length. reflexivity.
  - left. split; auto. now apply (inverted_iff cand NC).
Qed.

Lemma evaluation_nan rows n recs c data u uo cutoff : make_core rows n recs = Ok c -> n * u + n <= length data ->
  let sc i := nth (n * u + i) data NaN in
  let offered i := i < n /\ allowed recs uo i = true in
  let bad := exists a j b p q, offered a /\ offered j /\ offered b /\ a < j < b /\ sc j = NaN /\ sc a = Num p /\ sc b = Num q /\ p <> NegInf /\ scmp p q = Lt in
  (bad /\ franking c data u uo cutoff = UB) \/
  (~ bad /\ (exists r, franking c data u uo cutoff = Ok r) /\
   ((forall i, offered i -> sc i <> NaN) -> franking c data u uo cutoff = ranking c (map unnan data) u uo cutoff)).
Proof.
  intros HC HD sc offered bad. pose proof (proj1 (make_core_iff _ _ _ _) HC) as [Ec HR].
  destruct (offered_items_spec rows n recs uo HR) as [HN HI]. rewrite <- Ec in HN, HI.
  assert (HF : Forall (fun i => i < n) (offered_items c uo)) by (apply Forall_forall; intros i Hi; now apply HI in Hi).
  assert (EB : bad <-> exists a j b p q, In a (offered_items c uo) /\ In j (offered_items c uo) /\ In b (offered_items c uo) /\ a < j < b /\
    sc j = NaN /\ sc a = Num p /\ sc b = Num q /\ p <> NegInf /\ scmp p q = Lt).
  { unfold bad, offered. split; intros (a & j & b & p & q & H1 & H2 & H3 & H); exists a, j, b, p, q; (split; [now apply HI|]); (split; [now apply HI|]); (split; [now apply HI|]); exact H. }
  destruct (evaluation_nan_core rows n recs c data u uo cutoff HC HD HN HF) as [(H1 & H2)|(H1 & H2 & H3)].
  - left. split; auto. now apply EB.
  - right. split; [intros B; now apply H1, EB|]. split; auto. intros H. apply H3. intros i Hi. now apply H, HI.
Qed.

(** ** Seen items *)
Section Seen.
Context {I : Type}.
Variable eq_dec : forall a b : I, {a = b} + {a <> b}.
Lemma foffered_pos ids m row allowed x s : make_mapper eq_dec ids = Ok m -> length row = length ids ->
  In (x, s) (foffered eq_dec ids row allowed) -> exists i, nth_error ids i = Some x /\ nth i row NaN = s.
Proof.
  intros HM HL H. rewrite (foffered_inds eq_dec ids m row x allowed HM HL) in H. apply in_map_iff in H as (i & E & Hi).
  pose proof (inds_range eq_dec ids m allowed HM) as HR. rewrite Forall_forall in HR. specialize (HR i Hi).
  assert (E1 : nth i ids x = x) by (unfold fwith in E; congruence). assert (E2 : nth i row NaN = s) by (unfold fwith in E; congruence).
  exists i. split; auto. rewrite (nth_error_nth' ids x HR). now rewrite E1.
Qed.
Lemma masked_not_offered ids m row seen allowed x s i : make_mapper eq_dec ids = Ok m -> length row = length ids ->
  Forall (fun j => j < length ids) seen -> In i seen -> nth_error ids i = Some x ->
  In (x, s) (foffered eq_dec ids (fset_neginf row seen) allowed) -> s = Num NegInf.
Proof.
  intros HM HL HF Hi Ex H. apply (foffered_pos ids m) in H as (k & Ek & <-); auto; [|now rewrite fset_neginf_length].
  destruct (mapper_find eq_dec ids m x HM) as (_ & HN & _).
  assert (k = i) as ->.
  { apply (proj1 (NoDup_nth_error ids) HN); [apply nth_error_Some; congruence|congruence]. }
  rewrite fset_neginf_nth by now rewrite HL. rewrite (proj2 (existsb_exists (Nat.eqb i) seen)); auto. exists i. split; auto. apply Nat.eqb_refl.
Qed.
Lemma single_seen argsort ids m row seen cutoff allowed forbidden l i x : fsorts argsort ->
  make_mapper eq_dec ids = Ok m -> length row = length ids -> Forall (fun j => j < length ids) seen ->
  frecommended_items eq_dec argsort m (fset_neginf row seen) cutoff allowed forbidden = Ok l ->
  In i seen -> nth_error ids i = Some x -> ~ In x (map fst l).
Proof.
  intros HA HM HL HF HR Hi Ex Hin.
  assert (HL' : length (fset_neginf row seen) = length ids) by now rewrite fset_neginf_length.
  destruct (single_nan eq_dec argsort ids m _ cutoff allowed forbidden HA HM HL') as (l1 & l2 & rest & E & P1 & _ & (rest2 & P2 & _)).
  rewrite E in HR. injection HR as <-. rewrite map_app, map_map in Hin. cbn in Hin. apply in_app_or in Hin as [Hin|Hin]; apply in_map_iff in Hin as ([y s] & <- & Hin).
  - apply or_introl with (B := In (y, s) rest) in Hin. apply in_or_app, (Permutation_in _ P1) in Hin. apply filter_In in Hin as [Hin Hs].
    apply (masked_not_offered ids m row seen allowed y s i) in Hin; auto. subst s. discriminate.
  - apply or_introl with (B := In (y, s) rest2) in Hin. apply in_or_app, (Permutation_in _ P2) in Hin. apply filter_In in Hin as [Hin Hs].
    rewrite (offered_unnan eq_dec ids m _ allowed HM HL') in Hin. apply in_map_iff in Hin as ([z t] & E' & Hin). cbn in E'. injection E' as -> <-.
    apply (masked_not_offered ids m row seen allowed y t i) in Hin; auto. subst t. discriminate.
Qed.
Lemma batch_seen fl psort ids m rows seen cutoff allowed per_user forbidden l u i x : fl NegInf = NegInf -> fpartially_sorts psort ->
  make_mapper eq_dec ids = Ok m -> Forall (fun r => length r = length ids) rows -> length seen = length rows ->
  Forall (Forall (fun j => j < length ids)) seen ->
  (forall p, per_user = Some p -> length p = length rows) -> (forall f, forbidden = Some f -> length f = length rows) ->
  frecommended_items_batch eq_dec fl psort m (length ids) (map (fun p => fset_neginf (fst p) (snd p)) (combine rows seen)) cutoff allowed per_user forbidden = Ok l ->
  u < length rows -> In i (nth u seen []) -> nth_error ids i = Some x -> ~ In x (map fst (nth u l [])).
Proof.
  intros Hfl HP HM HR HS HF Hp Hf E Hu Hi Ex Hin. set (rows' := map _ (combine rows seen)) in *.
  assert (HL : length rows' = length rows) by (unfold rows'; rewrite map_length, combine_length; lia).
  assert (HN : nth u rows' [] = fset_neginf (nth u rows []) (nth u seen [])).
  { unfold rows'. set (g := fun p : list fscore * list nat => fset_neginf (fst p) (snd p)). change [] with (g ([], [])) at 1.
    rewrite map_nth, combine_nth by lia. reflexivity. }
  assert (HR' : Forall (fun r => length r = length ids) rows').
  { apply Forall_forall. intros r Hr. apply in_map_iff in Hr as (p & <- & Hp'). rewrite fset_neginf_length. destruct p as [r s]. apply in_combine_l in Hp'.
    rewrite Forall_forall in HR. now apply HR. }
  destruct (batch_nan eq_dec fl psort ids m rows' cutoff allowed per_user forbidden Hfl HP HM HR') as [(_ & E')|(_ & l' & E' & _ & H)]; [now rewrite HL|now rewrite HL|congruence|].
  rewrite E in E'. injection E' as <-. rewrite HL in H. destruct (H u Hu) as (_ & H2 & _). apply in_map_iff in Hin as ([y s] & <- & Hin).
  destruct (H2 y s Hin) as (Hs & _ & s0 & Ho & ->). rewrite HN in Ho. cbn in Ex.
  apply (masked_not_offered ids m (nth u rows []) (nth u seen []) _ y s0 i) in Ho; auto.
  - subst s0. apply Hs. cbn. now rewrite Hfl.
  - rewrite Forall_forall in HR. apply HR, nth_In. lia.
  - rewrite Forall_forall in HF. apply HF, nth_In. lia.
Qed.
(** Without NaN the single-user call is that of Rec_Model. *)
Lemma single_numbers argsort ids m row cutoff allowed forbidden : fsorts argsort ->
  make_mapper eq_dec ids = Ok m -> length row = length ids ->
  exists l, frecommended_items eq_dec argsort m (map Num row) cutoff allowed forbidden = Ok (map (fun p => (fst p, Num (snd p))) l) /\
    best (pool_finite eq_dec ids row allowed forbidden) (Z.to_nat (Z.max 1 cutoff)) l.
Proof.
  intros HA HM HL. assert (HL' : length (map Num row) = length ids) by now rewrite map_length.
  destruct (single_nan eq_dec argsort ids m _ cutoff allowed forbidden HA HM HL') as (l1 & l2 & rest & E & P1 & P2 & P3).
  assert (EN : pool_nan eq_dec ids (map Num row) allowed forbidden = []).
  { apply filter_none. apply Forall_forall. intros [x s] Hx. apply (foffered_pos ids m) in Hx as (i & Ei & <-); auto. cbn.
    assert (Hi : i < length row) by (rewrite HL; apply nth_error_Some; congruence).
    rewrite (nth_indep _ NaN (Num NegInf)) by now rewrite map_length. now rewrite map_nth. }
  rewrite EN in *. rewrite Nat.min_0_r in P2. destruct l1; [|discriminate]. exists l2. split; [exact E|].
  rewrite map_map, map_id, Nat.sub_0_r in P3. exact P3.
Qed.
End Seen.
