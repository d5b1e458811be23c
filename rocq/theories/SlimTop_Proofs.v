(** SLIM with [top_k]; the objective of the returned columns. *)
From Verif Require Import Base Sched_Model Sched_Proofs Knn_Model Knn_Spec KnnSim_Proofs KnnP3_Proofs Sparse_Proofs Slim_Model Slim_Spec Slim_Proofs SlimObj_Proofs.
From Coq Require Import QArith Qabs Qfield Lqa.
Local Open Scope nat_scope.

Section Top.
Context {V : Type}.
Variables zero : V.
Variables add sub mul div : V -> V -> V.
Variables opp vabs : V -> V.
Variables ltb leb neqb : V -> V -> bool.
Variable is_zero : list V -> bool.
Context {G : Type}.
Variable gen0 : G.
Variable shuffle : G -> list nat -> list nat * G.
Variable sort_desc : list (V * nat) -> list (V * nat).
Variable positive_only : bool.
Variable block_size : nat.
Variable n_rows : nat.
Variable X : list (srow V).
Variables l2 l1 tol : V.
Variable n_iter : nat.
Variable top_k : Z.
Hypothesis zero_neq : neqb zero zero = false.
Hypothesis shuffle_perm : forall g l, Permutation (fst (shuffle g l)) l.
Hypothesis bs_pos : 1 <= block_size.

Notation F := (length X).
Notation descent := (descent zero add sub mul div opp vabs ltb is_zero shuffle positive_only X l2 l1 tol).
Notation block_lanes := (block_lanes zero opp block_size n_rows X).
Notation slim_block := (slim_block zero add sub mul div opp vabs ltb neqb is_zero shuffle sort_desc positive_only block_size n_rows X l2 l1 tol n_iter top_k).
Notation slim := (slim zero add sub mul div opp vabs ltb leb neqb is_zero gen0 shuffle sort_desc positive_only block_size n_rows X l2 l1 tol n_iter top_k).
Notation ran := (ran zero add sub mul div opp vabs ltb is_zero shuffle positive_only block_size n_rows X l2 l1 tol n_iter).
Notation emit_top := (emit_top zero neqb sort_desc X top_k).
Notation emit_tops := (emit_tops zero neqb sort_desc X top_k).
Notation pick := (pick zero neqb).

(** The non-zero coefficients of a lane. *)
Definition fresh (l : lane V) : list (V * nat) :=
  flat_map (fun f => let c := nth f (ln_coef l) zero in if neqb c zero then [(c, f)] else []) (seq 0 F).

Definition lane_ts (x : lane V * list (nat * nat * V)) : Prop := exists buf, snd x = snd (emit_top buf (fst x)).

Lemma emit_tops_pairs lanes : forall buf, exists ps, map fst ps = lanes /\ Forall lane_ts ps /\ snd (emit_tops buf lanes) = flat_map snd ps.
Proof.
  induction lanes as [|l lanes IH]; intros buf; [exists []; cbn; auto|]. cbn [Slim_Model.emit_tops].
  destruct (emit_top buf l) as [buf1 ts] eqn:E. destruct (IH buf1) as (ps & A & B & C).
  destruct (emit_tops buf1 lanes) as [buf2 ts']. exists ((l, ts) :: ps). cbn [map flat_map snd fst] in *. split; [congruence|].
  split; [constructor; [exists buf; cbn; now rewrite E|exact B]|congruence].
Qed.

Lemma emit_top_column x t : lane_ts x -> In t (snd x) -> snd (fst t) = ln_item (fst x).
Proof.
  intros (buf & E) H. rewrite E in H. unfold Slim_Model.emit_top in H.
  destruct (if (top_k <? _)%Z then _ else _) as [b n]. cbn [snd] in H. apply in_map_iff in H. now destruct H as (cf & <- & _).
Qed.

Lemma emit_top_short x : (0 <= top_k)%Z -> lane_ts x -> (Z.of_nat (length (fresh (fst x))) <= top_k)%Z ->
  snd x = map (fun cf => (snd cf, ln_item (fst x), fst cf)) (fresh (fst x)).
Proof.
  intros Ht (buf & E) H. rewrite E. unfold Slim_Model.emit_top. fold (fresh (fst x)).
  rewrite (proj2 (Z.ltb_ge _ _) H). cbn [snd]. now rewrite firstn_app, Nat.sub_diag, firstn_all, app_nil_r.
Qed.
Lemma emit_top_count x : (0 <= top_k)%Z -> lane_ts x -> (Z.of_nat (length (snd x)) <= top_k)%Z.
Proof.
  intros Ht (buf & E). rewrite E. unfold Slim_Model.emit_top. fold (fresh (fst x)).
  destruct (Z.ltb_spec top_k (Z.of_nat (length (fresh (fst x))))) as [H|H]; cbn [snd]; rewrite map_length, firstn_length; lia.
Qed.

Lemma worker_tops log : (0 <= top_k)%Z -> forall w, Permutation (sw_indices w) (seq 0 F) ->
  exists bl, map fst bl = log /\
    Forall (fun x => exists lanes, ran (fst x) lanes /\ map fst (snd x) = firstn (valid_size block_size X (fst x)) lanes /\ Forall lane_ts (snd x)) bl /\
    sw_results (fold_left (fun a r => slim_block r a) log w) = sw_results w ++ flat_map (fun x => flat_map snd (snd x)) bl.
Proof.
  intros Ht. induction log as [|b log IH]; intros w Hw; cbn [fold_left].
  - exists []. cbn. rewrite app_nil_r. auto.
  - destruct (descent n_iter (sw_gen w) (sw_indices w) (block_lanes b)) as [[g inds] lanes] eqn:E.
    destruct (emit_tops_pairs (firstn (valid_size block_size X b) lanes) (sw_buffer w)) as (ps & P1 & P2 & P3).
    destruct (emit_tops (sw_buffer w) (firstn (valid_size block_size X b) lanes)) as [buf ts] eqn:Et. cbn [snd] in P3.
    assert (Eb : slim_block b w = mkSlimWorker g inds buf (sw_results w ++ ts)).
    { unfold Slim_Model.slim_block. rewrite E, (proj2 (Z.ltb_ge top_k 0) Ht), Et. reflexivity. }
    destruct (IH (slim_block b w)) as (bl & A & B & C).
    { rewrite Eb. cbn [sw_indices].
      destruct (descent_lanes zero add sub mul div opp vabs ltb is_zero shuffle positive_only X l2 l1 tol shuffle_perm _ _ _ _ _ _ _ E) as (_ & _ & P); [|now rewrite P].
      apply Forall_forall. intros l Hl. apply in_map_iff in Hl. destruct Hl as (i & <- & _). apply init_ok. }
    exists ((b, ps) :: bl). split; [cbn; now rewrite A|]. split.
    + constructor; [|exact B]. cbn. exists lanes. split; [|split; [exact P1|exact P2]]. exists (sw_gen w), (sw_indices w), g, inds. auto.
    + rewrite C, Eb. cbn [sw_results flat_map fst snd]. now rewrite <- app_assoc, P3.
Qed.

(** Values of the fresh coefficients at one position. *)
Lemma fresh_at l i : i < F -> map fst (filter (fun cf : V * nat => snd cf =? i) (fresh l)) = pick (nth i (ln_coef l) zero).
Proof.
  intros Hi. unfold fresh. rewrite filter_flat_map.
  replace F with (i + S (F - S i)) by lia. rewrite seq_app. cbn [seq]. rewrite flat_map_one.
  - cbn [Nat.add]. unfold Slim_Proofs.pick. destruct (neqb (nth i (ln_coef l) zero) zero); cbn; rewrite ?Nat.eqb_refl; reflexivity.
  - intros f Hf. cbn zeta. destruct (neqb (nth f (ln_coef l) zero) zero); cbn; auto.
    destruct (Nat.eqb_spec f i); auto. destruct Hf as [Hf|Hf]; apply in_seq in Hf; lia.
Qed.

Lemma filter_map_swap {A B} (p : B -> bool) (h : A -> B) l : filter p (map h l) = map h (filter (fun a => p (h a)) l).
Proof. induction l as [|a l IH]; cbn; auto. destruct (p (h a)); cbn; now rewrite IH. Qed.

Lemma nodup_incl_le {A} (l : list A) m : NoDup l -> incl l m -> length l <= length m.
Proof. apply NoDup_incl_length. Qed.

Theorem slim_top_columns n_threads sched W : (0 <= top_k)%Z -> slim n_threads sched = Ok W ->
  m_cols W = F /\ length (m_rows W) = F /\
  forall j, j < F -> (Z.of_nat (column_count W j) <= top_k)%Z /\
    exists lanes l, ran (j / block_size) lanes /\ In l lanes /\ ln_item l = j /\
    ((Z.of_nat (length (fresh l)) <= top_k)%Z -> forall i, i < F -> stored W i j = pick (nth i (ln_coef l) zero)).
Proof.
  intros Ht. unfold Slim_Model.slim, check_arg, await.
  destruct (Nat.ltb_spec 0 n_threads) as [Hn|]; [|discriminate].
  destruct (0 <? n_iter); [|discriminate]. destruct (leb zero l2); [|discriminate]. destruct (leb zero l1); [|discriminate].
  set (p := run_pool _ _ _ _ _ _). destruct (completed p) eqn:Hc; [|discriminate]. intros E. injection E as <-.
  split; [reflexivity|]. split; [cbn; now rewrite map_length, seq_length|].
  destruct (pool_exactly_once (n_blocks block_size X) 1 slim_block (fun _ s => s) n_threads
     (slim_worker0 zero gen0 X top_k) tt sched ltac:(lia) Hn Hc) as (logs & glog & _ & HP & _ & HA & _).
  fold p in HA.
  assert (HR : exists bl, map fst bl = concat logs /\
     Forall (fun x => exists lanes, ran (fst x) lanes /\ map fst (snd x) = firstn (valid_size block_size X (fst x)) lanes /\ Forall lane_ts (snd x)) bl /\
     concat (map (fun w => sw_results (w_acc w)) (p_workers p)) = flat_map (fun x => flat_map snd (snd x)) bl).
  { rewrite <- (map_map w_acc sw_results), HA, map_map. clear HA HP Hc p.
    induction logs as [|log logs IH]; [exists []; cbn; auto|]. destruct IH as (bl & A & B & C).
    destruct (worker_tops log Ht (slim_worker0 zero gen0 X top_k)) as (bl1 & A1 & B1 & C1); [reflexivity|].
    exists (bl1 ++ bl). split; [rewrite map_app; cbn; now rewrite A, A1|]. split; [now apply Forall_app|].
    cbn [map concat]. rewrite C, flat_map_app. unfold fold_acc. rewrite C1. reflexivity. }
  destruct HR as (bl & A & B & C). rewrite C. clear C HA.
  assert (ND : NoDup (map fst bl)) by (rewrite A; eapply Permutation_NoDup; [symmetry; exact HP|apply seq_NoDup]).
  intros j Hj. set (b := j / block_size).
  assert (Hb : In b (map fst bl)).
  { rewrite A. eapply Permutation_in; [symmetry; exact HP|]. apply in_seq. pose proof (blocks_of block_size X bs_pos j Hj) as H. fold b in H. lia. }
  apply in_map_iff in Hb. destruct Hb as ([b' ps] & Eb & Hb). cbn in Eb. rewrite Eb in Hb. clear b' Eb.
  apply in_split in Hb. destruct Hb as (bl1 & bl2 & Ebl).
  pose proof (proj1 (Forall_forall _ _) B) as R.
  destruct (R (b, ps)) as (lanes & RL & MP & LT); [rewrite Ebl; apply in_or_app; right; now left|]. cbn [fst snd] in *.
  assert (RLn : forall b lanes, ran b lanes -> map ln_item lanes = seq (b * block_size) block_size).
  { intros b0 lanes0 H0. eapply (ran_lanes zero add sub mul div opp vabs ltb is_zero shuffle) in H0; [apply H0|exact shuffle_perm]. }
  pose proof (RLn b lanes RL) as IT.
  assert (Hj2 : b * block_size <= j < b * block_size + block_size).
  { pose proof (Nat.div_mod j block_size ltac:(lia)) as H. pose proof (Nat.mod_upper_bound j block_size ltac:(lia)). fold b in H. nia. }
  assert (LL : length lanes = block_size) by (rewrite <- (map_length ln_item), IT; apply seq_length).
  set (k := j - b * block_size).
  assert (Hk : k < block_size) by (unfold k; lia).
  assert (Hv : k < valid_size block_size X b) by (unfold valid_size; unfold k; lia).
  assert (Lp : length ps = min (valid_size block_size X b) block_size) by (rewrite <- (map_length fst), MP, firstn_length; lia).
  destruct (nth_error ps k) as [[l ts]|] eqn:El; [|apply nth_error_None in El; lia].
  assert (IP : map (fun x => ln_item (fst x)) ps = seq (b * block_size) (min (valid_size block_size X b) block_size)).
  { rewrite <- (map_map fst ln_item), MP, <- firstn_map, IT. apply firstn_seq. }
  assert (Il : ln_item l = j).
  { apply (map_nth_error (fun x => ln_item (fst x))) in El. rewrite IP in El. apply (nth_error_nth _ _ 0) in El. rewrite seq_nth in El by lia. cbn in El. unfold k in El. lia. }
  assert (Lt : lane_ts (l, ts)) by (apply (proj1 (Forall_forall _ _) LT); eapply nth_error_In; exact El).
  (* only the triplets of this lane are in column j *)
  assert (EQ : forall i, filter (fun t : nat * nat * V => (fst (fst t) =? i) && (snd (fst t) =? j))
     (flat_map (fun x => flat_map snd (snd x)) bl) = filter (fun t : nat * nat * V => fst (fst t) =? i) ts).
  { intros i. assert (NO : forall x, lane_ts x -> ln_item (fst x) <> j -> filter (fun t : nat * nat * V => (fst (fst t) =? i) && (snd (fst t) =? j)) (snd x) = []).
    { intros x Hx Hne. assert (Hc2 : forall t, In t (snd x) -> snd (fst t) <> j) by (intros t Hin; rewrite (emit_top_column x t Hx Hin); exact Hne).
      induction (snd x) as [|t ts' IH]; [reflexivity|]. cbn. destruct (Nat.eqb_spec (snd (fst t)) j); [exfalso; apply (Hc2 t); [now left|assumption]|].
      rewrite andb_false_r. apply IH. intros; apply Hc2; now right. }
    rewrite filter_flat_map, Ebl. rewrite flat_map_one.
    - cbn [snd]. rewrite filter_flat_map. apply nth_error_split in El. destruct El as (pa & pb & -> & Lk).
      rewrite flat_map_one.
      + cbn [snd]. assert (Hc2 : forall t, In t ts -> snd (fst t) = j) by (intros t Hin; rewrite (emit_top_column (l, ts) t Lt Hin); exact Il).
        clear -Hc2. induction ts as [|t ts IH]; [reflexivity|]. cbn. rewrite (Hc2 t) by now left. rewrite Nat.eqb_refl, andb_true_r, IH; [reflexivity|].
        intros; apply Hc2; now right.
      + intros x Hx. apply NO.
        * apply (proj1 (Forall_forall _ _) LT). apply in_or_app. destruct Hx; [now left|right; now right].
        * assert (ND2 : NoDup (map (fun x => ln_item (fst x)) (pa ++ (l, ts) :: pb))) by (rewrite IP; apply seq_NoDup).
          rewrite map_app in ND2. cbn [map fst] in ND2. apply NoDup_remove_2 in ND2. rewrite Il in ND2. intros Ex. apply ND2.
          rewrite <- Ex. apply in_or_app. destruct Hx as [Hx|Hx]; [left|right]; now apply (in_map (fun x => ln_item (fst x))).
    - intros x Hx.
      assert (Hin : In x bl) by (rewrite Ebl; apply in_or_app; destruct Hx; [now left|right; now right]).
      assert (Hne : fst x <> b).
      { intros Eq. rewrite Ebl, map_app in ND. cbn [map fst] in ND. apply NoDup_remove_2 in ND. apply ND.
        rewrite <- Eq. apply in_or_app. destruct Hx; [left|right]; now apply in_map. }
      rewrite filter_flat_map. apply flat_map_none. intros y Hy. destruct (R x Hin) as (lanes' & R1 & R2 & R3).
      apply NO; [now apply (proj1 (Forall_forall _ _) R3)|].
      assert (Hyi : In (ln_item (fst y)) (seq (fst x * block_size) block_size)).
      { rewrite <- (RLn _ _ R1). apply in_map. rewrite <- (firstn_skipn (valid_size block_size X (fst x)) lanes'), <- R2. apply in_or_app. left. now apply in_map. }
      apply in_seq in Hyi. intros Em. destruct (Nat.lt_ge_cases (fst x) b); nia. }
  assert (ST : forall i, i < F -> stored (from_triplets zero add F F (flat_map (fun x => flat_map snd (snd x)) bl)) i j =
     match map snd (filter (fun t : nat * nat * V => fst (fst t) =? i) ts) with [] => [] | vs => [vsum1 zero add vs] end).
  { intros i Hi. rewrite from_triplets_stored. rewrite (proj2 (Nat.ltb_lt i F) Hi), (proj2 (Nat.ltb_lt j F) Hj). cbn [andb]. now rewrite EQ. }
  split.
  - apply Z.le_trans with (Z.of_nat (length ts)); [|exact (emit_top_count (l, ts) Ht Lt)].
    apply Nat2Z.inj_le. unfold column_count. cbn [m_rows from_triplets]. rewrite <- (map_length (fun t => fst (fst t)) ts).
    apply nodup_incl_le; [apply NoDup_filter, seq_NoDup|].
    intros i Hi. apply filter_In in Hi. destruct Hi as [Hi1 Hi2]. rewrite map_length, seq_length in Hi1. apply in_seq in Hi1.
    unfold stored in Hi2. change (map snd (filter _ (nth i _ []))) with (stored (from_triplets zero add F F (flat_map (fun x => flat_map snd (snd x)) bl)) i j) in Hi2.
    rewrite ST in Hi2 by lia. destruct (filter (fun t : nat * nat * V => fst (fst t) =? i) ts) as [|t r] eqn:Ef; [discriminate|].
    assert (Hin : In t (t :: r)) by now left. rewrite <- Ef in Hin. apply filter_In in Hin. destruct Hin as [Hin Hi3]. apply Nat.eqb_eq in Hi3.
    rewrite <- Hi3. now apply (in_map (fun t : nat * nat * V => fst (fst t))).
  - exists lanes, l. split; [exact RL|]. split.
    { assert (In l (map fst ps)) by (apply nth_error_In in El; apply (in_map fst) in El; exact El). rewrite MP in H.
      rewrite <- (firstn_skipn (valid_size block_size X b) lanes). apply in_or_app. now left. }
    split; [exact Il|]. intros Hs i Hi. rewrite ST by exact Hi. pose proof (emit_top_short (l, ts) Ht Lt Hs) as Es. cbn [fst snd] in Es.
    rewrite Es, filter_map_swap, map_map. cbn [fst snd].
    match goal with |- match ?m with _ => _ end = _ => replace m with (pick (nth i (ln_coef l) zero)) by (symmetry; exact (fresh_at l i Hi)) end. unfold Slim_Proofs.pick.
    destruct (neqb (nth i (ln_coef l) zero) zero); reflexivity.
Qed.
End Top.

(** ** Objective of the result *)
Section Objective.
Context {G : Type}.
Variable is_zero : list Q -> bool.
Variable gen0 : G.
Variable shuffle : G -> list nat -> list nat * G.
Variable sort_desc : list (Q * nat) -> list (Q * nat).
Variable positive_only : bool.
Variables block_size n : nat.
Variable X : list (srow Q).
Variables l2 l1 tol : Q.
Variable n_iter : nat.
Variable top_k : Z.
Hypothesis exz : exact_test is_zero.
Hypothesis shuf : shuffle_ok shuffle.
Hypothesis bs_pos : 1 <= block_size.
Hypothesis GX : good_columns n X.
Notation F := (length X).
Notation ran := (ran 0%Q Qplus Qminus Qmult Qdiv Qopp Qabs qltb is_zero shuffle positive_only block_size n X l2 l1 tol n_iter).

Lemma slim_checked n_threads sched W :
  slim_Q is_zero gen0 shuffle sort_desc positive_only block_size n X l2 l1 tol n_iter top_k n_threads sched = Ok W -> (0 <= l2 /\ 0 <= l1)%Q.
Proof.
  unfold slim_Q, slim, check_arg. destruct (0 <? n_threads); [|discriminate]. destruct (0 <? n_iter); [|discriminate].
  destruct (Qle_bool 0 l2) eqn:E2; [|discriminate]. destruct (Qle_bool 0 l1) eqn:E1; [|discriminate]. intros _.
  split; now apply Qle_bool_iff.
Qed.

Lemma ran_good (A : (0 <= l2)%Q) (B : (0 <= l1)%Q) b lanes l : ran b lanes -> In l lanes ->
  feasible positive_only X (ln_item l) (ln_coef l) /\
  (objective n X l2 l1 (ln_item l) (ln_coef l) <= objective n X l2 l1 (ln_item l) (repeat 0 F))%Q.
Proof.
  intros (g & inds & g' & inds' & P & E) Hl.
  assert (G0 : Forall (good_lane positive_only n X) (block_lanes 0%Q Qopp block_size n X b)).
  { apply Forall_forall. intros m Hm. apply in_map_iff in Hm. destruct Hm as (i & <- & _). now apply init_good. }
  destruct (descent_follow positive_only n X l2 l1 GX A B is_zero exz shuffle tol shuf n_iter g inds _ g' inds' lanes P G0 E) as [G1 F1].
  split; [apply (good_feasible positive_only n X); now apply (proj1 (Forall_forall _ _) G1)|].
  destruct (Forall2_in_r _ _ _ F1 l Hl) as (l0 & Hl0 & [Ei Eo]). apply in_map_iff in Hl0. destruct Hl0 as (i & <- & _).
  rewrite Ei in *. exact Eo.
Qed.

Lemma pick_sum c : (Qsum (pick 0%Q qneqb c) == c)%Q.
Proof.
  unfold pick, qneqb. destruct (Qeq_bool c 0) eqn:E; cbn.
  - apply Qeq_bool_iff in E. now rewrite E.
  - ring.
Qed.

Lemma weight_column_nth W j (w : list Q) : length (m_rows W) = F -> (forall i, i < F -> stored W i j = pick 0%Q qneqb (nth i w 0%Q)) ->
  forall i, i < F -> (nth i (weight_column W j) 0 == nth i w 0)%Q.
Proof.
  intros L S i Hi. unfold weight_column. rewrite L.
  rewrite (nth_map_lt (fun i => Qsum (stored W i j)) (seq 0 F) i 0) by now rewrite seq_length. rewrite seq_nth by exact Hi. cbn [Nat.add].
  rewrite S by exact Hi. apply pick_sum.
Qed.

Theorem slim_objective n_threads sched W : (top_k < 0)%Z ->
  slim_Q is_zero gen0 shuffle sort_desc positive_only block_size n X l2 l1 tol n_iter top_k n_threads sched = Ok W ->
  forall j, j < F -> feasible positive_only X j (weight_column W j) /\
    (objective n X l2 l1 j (weight_column W j) <= objective n X l2 l1 j (repeat 0 F))%Q.
Proof.
  intros Ht E j Hj. destruct (slim_checked _ _ _ E) as [A B].
  destruct (slim_columns 0%Q Qplus Qminus Qmult Qdiv Qopp Qabs qltb Qle_bool qneqb is_zero gen0 shuffle sort_desc positive_only block_size n X l2 l1 tol n_iter top_k
    shuf bs_pos n_threads sched W Ht E) as (_ & L & C).
  destruct (C j Hj) as (lanes & l & R & Hl & Il & S). destruct (ran_good A B _ _ l R Hl) as [Fe Ob]. rewrite Il in *.
  pose proof (weight_column_nth W j (ln_coef l) L S) as N. split.
  - destruct Fe as [Z P]. split; [rewrite N by exact Hj; exact Z|]. intros Hp f Hf. rewrite N by exact Hf. now apply P.
  - rewrite (objective_ext n X l2 l1 j (ln_coef l) (weight_column W j) N). exact Ob.
Qed.

Lemma fresh_count w j rem : length (fresh 0%Q qneqb X (mkLane j rem w)) = nonzeros X w.
Proof.
  unfold fresh, nonzeros. cbn [ln_coef]. induction (seq 0 F) as [|f l IH]; [reflexivity|]. cbn [flat_map filter].
  rewrite app_length, IH. unfold qneqb. destruct (Qeq_bool (nth f w 0%Q) 0); reflexivity.
Qed.

Theorem slim_found n_threads sched W :
  slim_Q is_zero gen0 shuffle sort_desc positive_only block_size n X l2 l1 tol n_iter top_k n_threads sched = Ok W ->
  m_cols W = F /\ length (m_rows W) = F /\
  forall j, j < F -> ((0 <= top_k)%Z -> (Z.of_nat (column_count W j) <= top_k)%Z) /\
  exists w, descent_column is_zero shuffle positive_only block_size n X l2 l1 tol n_iter j w /\
    ((top_k < 0)%Z \/ (Z.of_nat (nonzeros X w) <= top_k)%Z ->
     forall i, i < F -> (nth i (weight_column W j) 0 == nth i w 0)%Q).
Proof.
  intros E. destruct (Z.lt_ge_cases top_k 0) as [Ht|Ht].
  - destruct (slim_columns 0%Q Qplus Qminus Qmult Qdiv Qopp Qabs qltb Qle_bool qneqb is_zero gen0 shuffle sort_desc positive_only block_size n X l2 l1 tol n_iter top_k
      shuf bs_pos n_threads sched W Ht E) as (A & L & C).
    split; [exact A|]. split; [exact L|]. intros j Hj. split; [lia|].
    destruct (C j Hj) as (lanes & l & (g & inds & g' & inds' & P & D) & Hl & Il & S). exists (ln_coef l). split.
    + exists g, inds, g', inds', lanes, l. auto.
    + intros _. apply weight_column_nth; assumption.
  - destruct (slim_top_columns 0%Q Qplus Qminus Qmult Qdiv Qopp Qabs qltb Qle_bool qneqb is_zero gen0 shuffle sort_desc positive_only block_size n X l2 l1 tol n_iter top_k
      shuf bs_pos n_threads sched W Ht E) as (A & L & C).
    split; [exact A|]. split; [exact L|]. intros j Hj.
    destruct (C j Hj) as (Cn & lanes & l & (g & inds & g' & inds' & P & D) & Hl & Il & S). split; [intros _; exact Cn|]. exists (ln_coef l). split.
    + exists g, inds, g', inds', lanes, l. auto.
    + intros [H|H]; [lia|]. apply weight_column_nth; [exact L|]. apply S. destruct l as [it rem w]. rewrite fresh_count. exact H.
Qed.
End Objective.

(** ** Single updates *)
Section Updates.
Variable is_zero : list Q -> bool.
Variable positive_only : bool.
Variables block_size n : nat.
Variable X : list (srow Q).
Variables l2 l1 : Q.
Hypothesis exz : exact_test is_zero.
Hypothesis GX : good_columns n X.
Hypothesis l2_0 : (0 <= l2)%Q.
Hypothesis l1_0 : (0 <= l1)%Q.
Notation F := (length X).
Notation cd_step := (cd_step 0%Q Qplus Qminus Qmult Qdiv Qopp Qabs qltb is_zero positive_only X l2 l1).
Notation start b := (block_lanes 0%Q Qopp block_size n X b, 0%Q).

Lemma start_good b : Forall (good_lane positive_only n X) (block_lanes 0%Q Qopp block_size n X b).
Proof. apply Forall_forall. intros m Hm. apply in_map_iff in Hm. destruct Hm as (i & <- & _). now apply init_good. Qed.

Lemma Forall2_nth {A B} (R : A -> B -> Prop) la lb k a b : Forall2 R la lb -> nth_error la k = Some a -> nth_error lb k = Some b -> R a b.
Proof. intros H. revert k. induction H; intros [|k] Ha Hb; cbn in *; try discriminate; [congruence|eauto]. Qed.

Lemma slim_update b order f k l l' : (forall g, In g order -> g < F) -> f < F ->
  nth_error (fst (fold_left cd_step order (start b))) k = Some l ->
  nth_error (fst (fold_left cd_step (order ++ [f]) (start b))) k = Some l' ->
  ln_item l' = ln_item l /\ feasible positive_only X (ln_item l) (ln_coef l') /\
  (forall r, r < n -> (nth r (ln_rem l') 0 == residual X (ln_item l) (ln_coef l') r)%Q) /\
  best_coordinate positive_only n X l2 l1 (ln_item l) f (ln_coef l') /\
  (objective n X l2 l1 (ln_item l) (ln_coef l') <= objective n X l2 l1 (ln_item l) (ln_coef l))%Q.
Proof.
  intros Ho Hf. rewrite fold_left_app. cbn [fold_left].
  destruct (steps_follow positive_only n X l2 l1 GX l2_0 l1_0 is_zero exz order Ho (block_lanes 0%Q Qopp block_size n X b) 0%Q (start_good b)) as [Gd _].
  destruct (fold_left cd_step order (start b)) as [lanes delta]. cbn [fst] in *. intros Hl Hl'.
  pose proof (good_step positive_only n X l2 l1 GX is_zero exz f lanes delta Hf Gd) as G1.
  pose proof (cd_step_next positive_only n X l2 l1 GX is_zero exz f lanes delta Hf) as N.
  pose proof (Forall2_nth _ _ _ _ _ _ N Hl Hl') as Nl.
  pose proof (proj1 (Forall_forall _ _) Gd l (nth_error_In _ _ Hl)) as Gl.
  pose proof (proj1 (Forall_forall _ _) G1 l' (nth_error_In _ _ Hl')) as Gl'.
  assert (E : ln_item l' = ln_item l) by apply Nl.
  split; [exact E|]. split; [rewrite <- E; now apply (good_feasible positive_only n)|].
  split; [rewrite <- E; destruct Gl' as [(_ & _ & R) _]; exact R|].
  split; [rewrite <- E; exact (next_best positive_only n X l2 l1 GX l2_0 l1_0 f l l' Hf Gl Nl)|].
  rewrite <- E at 1. exact (next_le positive_only n X l2 l1 GX l2_0 l1_0 f l l' Hf Gl Nl).
Qed.

Lemma slim_quiet b order inds l' : (forall g, In g order -> g < F) -> Permutation inds (seq 0 F) ->
  (snd (fold_left cd_step inds (fst (fold_left cd_step order (start b)), 0)) == 0)%Q ->
  In l' (fst (fold_left cd_step inds (fst (fold_left cd_step order (start b)), 0%Q))) ->
  optimal positive_only n X l2 l1 (ln_item l') (ln_coef l').
Proof.
  intros Ho P E Hl. eapply (quiet_optimal positive_only n X l2 l1 GX l2_0 l1_0 is_zero exz inds); [exact P| |rewrite E; apply Qle_refl|exact Hl].
  apply (steps_follow positive_only n X l2 l1 GX l2_0 l1_0 is_zero exz order Ho). apply start_good.
Qed.
End Updates.

(** ** SLIMRecommender *)
Section Learn.
Context {G : Type}.
Variables (is_zero : list Q -> bool) (gen0 : G) (shuffle : G -> list nat -> list nat * G) (sort_desc : list (Q * nat) -> list (Q * nat)).
Variables (block_size : nat) (alpha l1_ratio : Q) (positive_only : bool) (n_iter : nat) (tol : Q).
Variables (users : nat) (X : list (srow Q)) (n_threads : nat) (sched : list nat).
Notation learn top_k := (slim_learn is_zero gen0 shuffle sort_desc block_size alpha l1_ratio positive_only n_iter tol top_k users X n_threads sched).
Let l2 := (inject_Z (Z.of_nat users) * alpha * (1 - l1_ratio))%Q.
Let l1 := (inject_Z (Z.of_nat users) * alpha * l1_ratio)%Q.

Lemma documented_objective j w : (documented_loss users X alpha l1_ratio j w == objective users X l2 l1 j w)%Q.
Proof. unfold documented_loss, objective, l2, l1. field. Qed.

Lemma learn_loss W : exact_test is_zero -> shuffle_ok shuffle -> 1 <= block_size -> good_columns users X -> learn None = Ok W ->
  forall j, j < length X -> feasible positive_only X j (weight_column W j) /\
    (documented_loss users X alpha l1_ratio j (weight_column W j) <= documented_loss users X alpha l1_ratio j (repeat 0 (length X)))%Q.
Proof.
  intros E S B GX HW j Hj. rewrite !documented_objective.
  exact (slim_objective is_zero gen0 shuffle sort_desc positive_only block_size users X l2 l1 tol n_iter (-1)%Z E S B GX n_threads sched W eq_refl HW j Hj).
Qed.
Lemma learn_columns top_k W : shuffle_ok shuffle -> 1 <= block_size -> learn top_k = Ok W ->
  m_cols W = length X /\ length (m_rows W) = length X /\
  forall j, j < length X -> (forall k, top_k = Some k -> column_count W j <= k) /\
  exists w, descent_column is_zero shuffle positive_only block_size users X
      (inject_Z (Z.of_nat users) * alpha * (1 - l1_ratio))%Q (inject_Z (Z.of_nat users) * alpha * l1_ratio)%Q tol n_iter j w /\
    ((forall k, top_k = Some k -> nonzeros X w <= k) ->
     forall i, i < length X -> (nth i (weight_column W j) 0 == nth i w 0)%Q).
Proof.
  intros S B HW. destruct (slim_found is_zero gen0 shuffle sort_desc positive_only block_size users X l2 l1 tol n_iter _ S B n_threads sched W HW) as (A1 & A2 & A3).
  split; [exact A1|]. split; [exact A2|]. intros j Hj. destruct (A3 j Hj) as (C & w & Hw & K). split.
  - intros k ->. specialize (C ltac:(lia)). lia.
  - exists w. split; [exact Hw|]. intros Hk. apply K. destruct top_k as [k|]; [right; specialize (Hk k eq_refl); lia|left; lia].
Qed.
Lemma learn_refuses top_k : (0 < users) -> ((alpha * (1 - l1_ratio) < 0)%Q \/ (alpha * l1_ratio < 0)%Q \/ n_iter = 0 \/ n_threads = 0) -> learn top_k = Fail InvalidArgument.
Proof.
  intros Hu H. assert (Pu : (0 < inject_Z (Z.of_nat users))%Q) by (change 0%Q with (inject_Z 0); rewrite <- Zlt_Qlt; lia).
  unfold slim_learn, slim_Q, slim. unfold check_arg.
  destruct (Nat.ltb_spec 0 n_threads); [|reflexivity]. destruct (Nat.ltb_spec 0 n_iter); [|reflexivity].
  assert (N : forall q, (alpha * q < 0)%Q -> Qle_bool 0 (inject_Z (Z.of_nat users) * alpha * q) = false).
  { intros q Hq. destruct (Qle_bool 0 (inject_Z (Z.of_nat users) * alpha * q)) eqn:El; [|reflexivity]. apply Qle_bool_iff in El. nra. }
  destruct H as [H|[H|[H|H]]]; try lia.
  - now rewrite (N _ H).
  - rewrite (N _ H). now destruct (Qle_bool 0 _).
Qed.
End Learn.
