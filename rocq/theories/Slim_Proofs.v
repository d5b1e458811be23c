(** SLIM for an arbitrary arithmetic: what the workers return. *)
From Verif Require Import Base Sched_Model Sched_Proofs Knn_Model Knn_Spec Slim_Model.
From Coq Require Import QArith.
Local Open Scope nat_scope.

Lemma filter_flat_map {A B} (p : B -> bool) (h : A -> list B) l :
  filter p (flat_map h l) = flat_map (fun x => filter p (h x)) l.
Proof. induction l as [|x l IH]; cbn; auto. now rewrite filter_app, IH. Qed.
Lemma flat_map_none {A B} (h : A -> list B) l : (forall x, In x l -> h x = []) -> flat_map h l = [].
Proof. induction l as [|x l IH]; intros H; cbn; auto. rewrite H by now left. apply IH. intros; apply H; now right. Qed.
(** Only one element contributes. *)
Lemma flat_map_one {A B} (h : A -> list B) l1 x l2 :
  (forall y, In y l1 \/ In y l2 -> h y = []) -> flat_map h (l1 ++ x :: l2) = h x.
Proof.
  intros H. rewrite flat_map_app. cbn. rewrite (flat_map_none h l1), (flat_map_none h l2) by (intros; apply H; auto).
  cbn. apply app_nil_r.
Qed.

Lemma from_triplets_stored {V} (v0 : V) vadd rows cols ts i j :
  stored (from_triplets v0 vadd rows cols ts) i j =
  if (i <? rows) && (j <? cols) then
    match map snd (filter (fun t => (fst (fst t) =? i) && (snd (fst t) =? j)) ts) with
    | [] => []
    | vs => [vsum1 v0 vadd vs]
    end
  else [].
Proof.
  unfold stored, from_triplets. cbn [m_rows].
  destruct (Nat.ltb_spec i rows) as [Hi|Hi]; cbn [andb].
  - set (g := fun r : nat => _). rewrite (nth_indep _ [] (g 0)) by now rewrite map_length, seq_length.
    rewrite (map_nth g), seq_nth by exact Hi. cbn [Nat.add]. unfold g. clear g.
    rewrite filter_flat_map. destruct (Nat.ltb_spec j cols) as [Hj|Hj].
    + replace cols with (j + S (cols - S j)) by lia. rewrite seq_app. cbn [seq].
      rewrite flat_map_one.
      * cbn [Nat.add]. destruct (map snd (filter _ ts)); cbn; [reflexivity|]. now rewrite Nat.eqb_refl.
      * intros c Hc. assert (c <> j) by (destruct Hc as [Hc|Hc]; apply in_seq in Hc; lia).
        destruct (map snd (filter _ ts)); cbn; [reflexivity|]. destruct (Nat.eqb_spec c j); [contradiction|reflexivity].
    + rewrite flat_map_none; [reflexivity|]. intros c Hc. apply in_seq in Hc.
      destruct (map snd (filter _ ts)); cbn; [reflexivity|]. destruct (Nat.eqb_spec c j); [lia|reflexivity].
  - rewrite nth_overflow by (rewrite map_length, seq_length; lia). reflexivity.
Qed.

Section Slim.
Context {V : Type}.
Variables zero : V.
Variables add sub mul div : V -> V -> V.
Variables opp vabs : V -> V.
Variables ltb leb neqb : V -> V -> bool.
Variable is_zero : list V -> bool.
Context {G : Type}.
Variable gen0 : G.
Variable shuffle : G -> list nat -> list nat * G.
Variable sort_desc : list (V * nat) -> list (V * nat).
Variable positive_only : bool.
Variable block_size : nat.
Variable n_rows : nat.
Variable X : list (srow V).
Variables l2 l1 tol : V.
Variable n_iter : nat.
Variable top_k : Z.
Hypothesis zero_neq : neqb zero zero = false.
Hypothesis shuffle_perm : forall g l, Permutation (fst (shuffle g l)) l.
Hypothesis bs_pos : 1 <= block_size.

Let F := length X.
Let new_coef := new_coef zero add sub mul div opp ltb positive_only X l2 l1.
Let cd_step := cd_step zero add sub mul div opp vabs ltb is_zero positive_only X l2 l1.
Let descent := descent zero add sub mul div opp vabs ltb is_zero shuffle positive_only X l2 l1 tol.
Let block_lanes := block_lanes zero opp block_size n_rows X.
Let slim_block := slim_block zero add sub mul div opp vabs ltb neqb is_zero shuffle sort_desc positive_only block_size n_rows X l2 l1 tol n_iter top_k.
Let slim := slim zero add sub mul div opp vabs ltb leb neqb is_zero gen0 shuffle sort_desc positive_only block_size n_rows X l2 l1 tol n_iter top_k.

(** * Invariants of a lane *)
Definition lane_ok (l : lane V) : Prop :=
  length (ln_coef l) = F /\ nth (ln_item l) (ln_coef l) zero = zero /\
  (positive_only = true -> forall f, nth f (ln_coef l) zero = zero \/ ltb zero (nth f (ln_coef l) zero) = true).

Lemma nth_update {A} (l : list A) k x i d : nth i (update_nth l k x) d = if (i =? k) && (i <? length l) then x else nth i l d.
Proof.
  revert k i. induction l as [|y l IH]; intros [|k] [|i]; cbn; auto.
  - destruct (i =? k); reflexivity.
  - rewrite IH. reflexivity.
Qed.

Lemma lane_ok_update l f rem : lane_ok l ->
  lane_ok (mkLane (ln_item l) rem (update_nth (ln_coef l) f (new_coef f l))).
Proof.
  intros (A & B & C). unfold lane_ok. cbn [ln_item ln_coef]. split; [now rewrite update_nth_length|]. split.
  - rewrite nth_update. destruct (Nat.eqb_spec (ln_item l) f) as [E|E]; cbn [andb]; [|exact B].
    destruct (_ <? _); [|exact B]. unfold new_coef, Slim_Model.new_coef. rewrite E, Nat.eqb_refl. reflexivity.
  - intros P g. rewrite nth_update. destruct ((g =? f) && _); [|now apply C].
    unfold new_coef, Slim_Model.new_coef. rewrite P. destruct (ln_item l =? f); [now left|].
    set (lplus := div _ _). destruct (ltb zero lplus) eqn:E; [now right|now left].
Qed.

Lemma map_fst_combine {A B} (l : list A) (f : A -> B) (h : A * B -> nat) : 
  map h (combine l (map f l)) = map (fun x => h (x, f x)) l.
Proof. induction l as [|x l IH]; cbn; auto. now rewrite IH. Qed.

Lemma in_combine_map {A B} (l : list A) (f : A -> B) x : In x (combine l (map f l)) -> In (fst x) l /\ snd x = f (fst x).
Proof.
  induction l as [|y l IH]; cbn; [intros []|]. intros [<-|H]; [cbn; auto|]. destruct (IH H). auto.
Qed.

Lemma cd_step_lanes st f : Forall lane_ok (fst st) ->
  Forall lane_ok (fst (cd_step st f)) /\ map ln_item (fst (cd_step st f)) = map ln_item (fst st).
Proof.
  destruct st as [lanes delta]. cbn [fst]. intros H. unfold cd_step, Slim_Model.cd_step.
  destruct (is_zero _); cbn [fst].
  - split; [|rewrite map_map; reflexivity]. apply Forall_forall. intros l Hl. apply in_map_iff in Hl.
    destruct Hl as (m & <- & Hm). apply (lane_ok_update m f). now apply (proj1 (Forall_forall _ _) H).
  - split.
    + apply Forall_forall. intros l Hl. apply in_map_iff in Hl. destruct Hl as ([m d] & <- & Hm). cbn [fst snd].
      apply (lane_ok_update m f). apply in_combine_map in Hm. now apply (proj1 (Forall_forall _ _) H).
    + rewrite map_map. cbn [ln_item]. now rewrite (map_fst_combine lanes _ (fun x => ln_item (fst x))).
Qed.

Lemma sweep_lanes inds : forall st, Forall lane_ok (fst st) ->
  Forall lane_ok (fst (fold_left cd_step inds st)) /\ map ln_item (fst (fold_left cd_step inds st)) = map ln_item (fst st).
Proof.
  induction inds as [|f inds IH]; intros st H; cbn [fold_left]; [now split|].
  destruct (cd_step_lanes st f H) as [A B]. destruct (IH _ A) as [C D]. split; [exact C|congruence].
Qed.

Lemma descent_lanes n : forall g inds lanes g' inds' lanes',
  descent n g inds lanes = (g', inds', lanes') -> Forall lane_ok lanes ->
  Forall lane_ok lanes' /\ map ln_item lanes' = map ln_item lanes /\ Permutation inds' inds.
Proof.
  induction n as [|n IH]; intros g inds lanes g' inds' lanes' E H; unfold descent in E; cbn [Slim_Model.descent] in E.
  - injection E as <- <- <-. auto.
  - pose proof (shuffle_perm g inds) as SP. destruct (shuffle g inds) as [i1 g1]. cbn [fst] in SP.
    fold cd_step in E. destruct (fold_left cd_step i1 (lanes, zero)) as [lanes1 delta] eqn:Ef.
    destruct (sweep_lanes i1 (lanes, zero) H) as [A B]. rewrite Ef in A, B. cbn [fst] in A, B.
    destruct (ltb delta tol).
    + injection E as <- <- <-. auto.
    + fold descent in E. destruct (IH _ _ _ _ _ _ E A) as (C & D & P). split; [exact C|]. split; [congruence|].
      now rewrite P.
Qed.

Lemma init_ok item : lane_ok (init_lane zero opp n_rows X item).
Proof.
  unfold lane_ok, init_lane. cbn [ln_item ln_coef]. split; [apply repeat_length|]. split; [apply nth_repeat|].
  intros _ f. left. apply nth_repeat.
Qed.

(** * The blocks *)
(** The lanes a worker ends up with for block [b]. *)
Definition ran (b : nat) (lanes : list (lane V)) : Prop :=
  exists g inds g' inds', Permutation inds (seq 0 F) /\ descent n_iter g inds (block_lanes b) = (g', inds', lanes).

Lemma ran_lanes b lanes : ran b lanes -> Forall lane_ok lanes /\ map ln_item lanes = seq (b * block_size) block_size.
Proof.
  intros (g & inds & g' & inds' & P & E). destruct (descent_lanes _ _ _ _ _ _ _ E) as (A & B & _).
  - apply Forall_forall. intros l Hl. apply in_map_iff in Hl. destruct Hl as (i & <- & _). apply init_ok.
  - split; [exact A|]. rewrite B. unfold block_lanes, Slim_Model.block_lanes. rewrite map_map. cbn. apply map_id.
Qed.

(** What one worker collects. *)
Lemma worker_results log : (top_k < 0)%Z -> forall w, Permutation (sw_indices w) (seq 0 F) ->
  exists bl, map fst bl = log /\ Forall (fun x => ran (fst x) (snd x)) bl /\
    sw_results (fold_left (fun a r => slim_block r a) log w)
    = sw_results w ++ flat_map (fun x => emit_all zero neqb X (firstn (valid_size block_size X (fst x)) (snd x))) bl.
Proof.
  intros Ht. induction log as [|b log IH]; intros w Hw; cbn [fold_left].
  - exists []. cbn. rewrite app_nil_r. auto.
  - destruct (descent n_iter (sw_gen w) (sw_indices w) (block_lanes b)) as [[g inds] lanes] eqn:E.
    destruct (IH (slim_block b w)) as (bl & A & B & C).
    { unfold slim_block, Slim_Model.slim_block. fold descent block_lanes. rewrite E.
      rewrite (proj2 (Z.ltb_lt top_k 0) Ht). cbn [sw_indices].
      destruct (descent_lanes _ _ _ _ _ _ _ E) as (_ & _ & P); [|now rewrite P].
      apply Forall_forall. intros l Hl. apply in_map_iff in Hl. destruct Hl as (i & <- & _). apply init_ok. }
    exists ((b, lanes) :: bl). split; [cbn; now rewrite A|]. split.
    + constructor; [|exact B]. cbn. exists (sw_gen w), (sw_indices w), g, inds. auto.
    + rewrite C. unfold slim_block at 1, Slim_Model.slim_block. fold descent block_lanes. rewrite E.
      rewrite (proj2 (Z.ltb_lt top_k 0) Ht). cbn [sw_results flat_map fst snd]. now rewrite <- app_assoc.
Qed.

(** Triplets of one block at a position. *)
Definition pick (c : V) : list V := if neqb c zero then [c] else [].

Lemma emit_all_at lanes i j : NoDup (map ln_item lanes) ->
  map snd (filter (fun t => (fst (fst t) =? i) && (snd (fst t) =? j)) (emit_all zero neqb X lanes)) =
  if i <? F then flat_map (fun l => if ln_item l =? j then pick (nth i (ln_coef l) zero) else []) lanes else [].
Proof.
  intros ND. unfold emit_all. fold F. rewrite filter_flat_map.
  assert (Z : forall f, f <> i -> filter (fun t : nat * nat * V => (fst (fst t) =? i) && (snd (fst t) =? j))
    (flat_map (fun l => let c := nth f (ln_coef l) zero in if neqb c zero then [(f, ln_item l, c)] else []) lanes) = []).
  { intros f Hf. rewrite filter_flat_map. apply flat_map_none. intros l _. cbn zeta.
    destruct (neqb (nth f (ln_coef l) zero) zero); cbn; auto. destruct (Nat.eqb_spec f i); [contradiction|reflexivity]. }
  destruct (Nat.ltb_spec i F) as [Hi|Hi].
  - replace F with (i + S (F - S i)) by lia. rewrite seq_app. cbn [seq]. rewrite flat_map_one.
    + cbn [Nat.add]. clear Z ND. induction lanes as [|l lanes IH]; [reflexivity|]. cbn [flat_map].
      rewrite filter_app, map_app, IH. f_equal. unfold pick. destruct (neqb (nth i (ln_coef l) zero) zero); cbn; rewrite ?Nat.eqb_refl; cbn; destruct (ln_item l =? j); reflexivity.
    + intros f Hf. apply Z. destruct Hf as [Hf|Hf]; apply in_seq in Hf; lia.
  - rewrite flat_map_none; [reflexivity|]. intros f Hf. apply Z. apply in_seq in Hf. lia.
Qed.

Lemma firstn_seq n : forall s m, firstn n (seq s m) = seq s (min n m).
Proof. induction n as [|n IH]; intros s [|m]; cbn; auto. now rewrite IH. Qed.

Lemma blocks_of j : j < F -> j / block_size < n_blocks block_size X.
Proof.
  intros Hj. unfold n_blocks. fold F. pose proof (Nat.div_mod (F + (block_size - 1)) block_size ltac:(lia)) as E.
  pose proof (Nat.mod_upper_bound (F + (block_size - 1)) block_size ltac:(lia)).
  apply Nat.div_lt_upper_bound; [lia|]. nia.
Qed.

Lemma flat_map_concat {A B} (h : A -> list B) ls : flat_map h (concat ls) = concat (map (flat_map h) ls).
Proof. induction ls as [|l ls IH]; cbn; auto. now rewrite flat_map_app, IH. Qed.

(** All columns of the result. *)
Theorem slim_columns n_threads sched W : (top_k < 0)%Z -> slim n_threads sched = Ok W ->
  m_cols W = F /\ length (m_rows W) = F /\
  forall j, j < F -> exists lanes l, ran (j / block_size) lanes /\ In l lanes /\ ln_item l = j /\
    forall i, i < F -> stored W i j = pick (nth i (ln_coef l) zero).
Proof.
  intros Ht. unfold slim, Slim_Model.slim, check_arg, await.
  destruct (Nat.ltb_spec 0 n_threads) as [Hn|]; [|discriminate].
  destruct (0 <? n_iter); [|discriminate]. destruct (leb zero l2); [|discriminate]. destruct (leb zero l1); [|discriminate].
  fold slim_block. set (p := run_pool _ _ _ _ _ _). destruct (completed p) eqn:Hc; [|discriminate]. intros E. injection E as <-.
  fold F. split; [reflexivity|]. split; [cbn; now rewrite map_length, seq_length|].
  destruct (pool_exactly_once (n_blocks block_size X) 1 slim_block (fun _ s => s) n_threads
     (slim_worker0 zero gen0 X top_k) tt sched ltac:(lia) Hn Hc) as (logs & glog & _ & HP & _ & HA & _).
  fold p in HA.
  assert (HR : exists bl, map fst bl = concat logs /\ Forall (fun x => ran (fst x) (snd x)) bl /\
     concat (map (fun w => sw_results (w_acc w)) (p_workers p))
     = flat_map (fun x => emit_all zero neqb X (firstn (valid_size block_size X (fst x)) (snd x))) bl).
  { rewrite <- (map_map w_acc sw_results), HA, map_map. clear HA HP Hc p.
    induction logs as [|log logs IH]; [exists []; cbn; auto|]. destruct IH as (bl & A & B & C).
    destruct (worker_results log Ht (slim_worker0 zero gen0 X top_k)) as (bl1 & A1 & B1 & C1); [reflexivity|].
    exists (bl1 ++ bl). split; [rewrite map_app; cbn; now rewrite A, A1|]. split; [now apply Forall_app|].
    cbn [map concat]. rewrite C, flat_map_app. unfold fold_acc. rewrite C1. reflexivity. }
  destruct HR as (bl & A & B & C). rewrite C. clear C HA.
  assert (ND : NoDup (map fst bl)) by (rewrite A; eapply Permutation_NoDup; [symmetry; exact HP|apply seq_NoDup]).
  intros j Hj. set (b := j / block_size).
  assert (Hb : In b (map fst bl)).
  { rewrite A. eapply Permutation_in; [symmetry; exact HP|]. apply in_seq. pose proof (blocks_of j Hj) as H. fold b in H. lia. }
  apply in_map_iff in Hb. destruct Hb as ([b' lanes] & Eb & Hb). cbn in Eb. rewrite Eb in Hb. clear b' Eb.
  apply in_split in Hb. destruct Hb as (bl1 & bl2 & Ebl).
  assert (R : forall x, In x bl -> ran (fst x) (snd x)) by (apply Forall_forall; exact B).
  assert (RL : ran b lanes) by (apply (R (b, lanes)); rewrite Ebl; apply in_or_app; right; now left).
  destruct (ran_lanes b lanes RL) as [OK IT].
  assert (Hj2 : b * block_size <= j < b * block_size + block_size).
  { pose proof (Nat.div_mod j block_size ltac:(lia)) as H. pose proof (Nat.mod_upper_bound j block_size ltac:(lia)). fold b in H. nia. }
  assert (LL : length lanes = block_size) by (rewrite <- (map_length ln_item), IT; apply seq_length).
  set (k := j - b * block_size).
  assert (Hk : k < block_size) by (unfold k; lia).
  destruct (nth_error lanes k) as [l|] eqn:El; [|apply nth_error_None in El; lia].
  assert (Il : ln_item l = j).
  { apply (map_nth_error ln_item) in El. rewrite IT in El. apply (nth_error_nth _ _ 0) in El. rewrite seq_nth in El by exact Hk. unfold k in El. lia. }
  exists lanes, l. split; [exact RL|]. split; [eapply nth_error_In; exact El|]. split; [exact Il|].
  intros i Hi. rewrite from_triplets_stored. rewrite (proj2 (Nat.ltb_lt i F) Hi), (proj2 (Nat.ltb_lt j F) Hj). cbn [andb].
  assert (EQ : map snd (filter (fun t : nat * nat * V => (fst (fst t) =? i) && (snd (fst t) =? j))
     (flat_map (fun x => emit_all zero neqb X (firstn (valid_size block_size X (fst x)) (snd x))) bl)) = pick (nth i (ln_coef l) zero)).
  { rewrite filter_flat_map, Ebl.
    assert (W : forall x, In x bl -> map snd (filter (fun t : nat * nat * V => (fst (fst t) =? i) && (snd (fst t) =? j))
       (emit_all zero neqb X (firstn (valid_size block_size X (fst x)) (snd x))))
       = flat_map (fun l => if ln_item l =? j then pick (nth i (ln_coef l) zero) else []) (firstn (valid_size block_size X (fst x)) (snd x))).
    { intros x Hx. rewrite emit_all_at; [now rewrite (proj2 (Nat.ltb_lt i F) Hi)|].
      destruct (ran_lanes _ _ (R x Hx)) as [_ I]. rewrite <- firstn_map, I, firstn_seq. apply seq_NoDup. }
    rewrite flat_map_one.
    - etransitivity; [apply (W (b, lanes)); rewrite Ebl; apply in_or_app; right; now left|]. cbn [fst snd].
      assert (Hv : k < valid_size block_size X b) by (unfold valid_size; fold F; unfold k; lia).
      apply nth_error_split in El. destruct El as (la & lb & -> & Lk).
      rewrite map_app in IT. cbn [map] in IT.
      rewrite firstn_app. replace (valid_size block_size X b - length la) with (S (valid_size block_size X b - S k)) by lia.
      cbn [firstn]. rewrite flat_map_one.
      + now rewrite Il, Nat.eqb_refl.
      + assert (ND2 : NoDup (map ln_item la ++ ln_item l :: map ln_item lb)) by (rewrite IT; apply seq_NoDup).
        apply NoDup_remove_2 in ND2. rewrite Il in ND2.
        intros m Hm. destruct (Nat.eqb_spec (ln_item m) j) as [Em|]; [|reflexivity]. exfalso. apply ND2, in_or_app.
        destruct Hm as [Hm|Hm]; [left|right]; rewrite <- Em; apply in_map; eapply (incl_firstn) || idtac.
        * rewrite <- (firstn_skipn (valid_size block_size X b) la). apply in_or_app. now left.
        * rewrite <- (firstn_skipn (valid_size block_size X b - S k) lb). apply in_or_app. now left.
    - intros x Hx.
      assert (Hin : In x bl) by (rewrite Ebl; apply in_or_app; destruct Hx; [now left|right; now right]).
      assert (Hne : fst x <> b).
      { intros Eq. rewrite Ebl, map_app in ND. cbn [map fst] in ND. apply NoDup_remove_2 in ND. apply ND.
        rewrite <- Eq. apply in_or_app. destruct Hx; [left|right]; now apply in_map. }
      specialize (W x Hin). rewrite flat_map_none in W.
      + apply map_eq_nil in W. exact W.
      + intros m Hm. destruct (ran_lanes _ _ (R x Hin)) as [_ I].
        assert (Hmi : In (ln_item m) (seq (fst x * block_size) block_size)).
        { rewrite <- I. apply in_map. rewrite <- (firstn_skipn (valid_size block_size X (fst x)) (snd x)). apply in_or_app. now left. }
        apply in_seq in Hmi. destruct (Nat.eqb_spec (ln_item m) j) as [Em|]; [|reflexivity]. exfalso.
        destruct (Nat.lt_ge_cases (fst x) b); nia. }
  rewrite EQ. unfold pick. destruct (neqb (nth i (ln_coef l) zero) zero); reflexivity.
Qed.

(** Zero diagonal, non-zero and positive stored values. *)
Theorem slim_weights n_threads sched W : (top_k < 0)%Z -> slim n_threads sched = Ok W ->
  m_cols W = F /\ length (m_rows W) = F /\
  forall i j v, In v (stored W i j) ->
    i < F /\ j < F /\ i <> j /\ neqb v zero = true /\ (positive_only = true -> ltb zero v = true).
Proof.
  intros Ht E. destruct (slim_columns n_threads sched W Ht E) as (A & B & C).
  split; [exact A|]. split; [exact B|]. intros i j v Hv.
  assert (Hi : i < F).
  { destruct (Nat.lt_ge_cases i F) as [H|H]; auto. unfold stored in Hv. rewrite nth_overflow in Hv by lia. destruct Hv. }
  assert (Hj : j < F).
  { unfold slim, Slim_Model.slim, check_arg, await in E.
    destruct (0 <? n_threads); [|discriminate]. destruct (0 <? n_iter); [|discriminate].
    destruct (leb zero l2); [|discriminate]. destruct (leb zero l1); [|discriminate].
    destruct (completed _); [|discriminate]. injection E as <-. rewrite from_triplets_stored in Hv. fold F in Hv.
    destruct (Nat.ltb_spec j F) as [H|H]; auto. rewrite andb_false_r in Hv. destruct Hv. }
  destruct (C j Hj) as (lanes & l & R & Hl & Il & S). rewrite (S i Hi) in Hv.
  destruct (ran_lanes _ _ R) as [OK _]. apply (proj1 (Forall_forall _ _) OK) in Hl. destruct Hl as (_ & Z & P).
  unfold pick in Hv. destruct (neqb (nth i (ln_coef l) zero) zero) eqn:N; [|destruct Hv]. destruct Hv as [<-|[]].
  split; [exact Hi|]. split; [exact Hj|]. split; [|split; [exact N|]].
  - intros <-. rewrite Il in Z. rewrite Z in N. congruence.
  - intros Pos. destruct (P Pos i) as [Q|Q]; [rewrite Q in N; congruence|exact Q].
Qed.

Lemma slim_returns n_threads sched : 1 <= n_threads -> 1 <= n_iter -> leb zero l2 = true -> leb zero l1 = true ->
  (forall t, t < n_threads -> 3 * F + 1 <= count_occ Nat.eq_dec sched t) ->
  exists W, slim n_threads sched = Ok W.
Proof.
  intros A B C D E. unfold slim, Slim_Model.slim, check_arg, await.
  rewrite (proj2 (Nat.ltb_lt 0 n_threads)), (proj2 (Nat.ltb_lt 0 n_iter)), C, D by lia.
  rewrite fair_completes; [eexists; reflexivity|lia|].
  intros t Ht. specialize (E t Ht).
  assert (n_blocks block_size X <= F).
  { unfold n_blocks. fold F. destruct (Nat.eq_dec F 0) as [->|]; [rewrite Nat.div_small; lia|].
    apply Nat.div_le_upper_bound; [lia|]. nia. }
  lia.
Qed.

Lemma slim_rejects n_threads sched :
  (1 <= n_threads /\ 1 <= n_iter /\ leb zero l2 = true /\ leb zero l1 = true) \/ slim n_threads sched = Fail InvalidArgument.
Proof.
  unfold slim, Slim_Model.slim, check_arg. destruct (Nat.ltb_spec 0 n_threads); [|now right].
  destruct (Nat.ltb_spec 0 n_iter); [|now right]. destruct (leb zero l2); [|now right]. destruct (leb zero l1); [|now right]. left. auto.
Qed.
End Slim.
