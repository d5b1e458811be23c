(** The heap of Share_Model: what a step writes. *)
From Verif Require Import Base Sched_Model Sched_Proofs Eval_Model EvalPy_Model Rec_Model Share_Model Share_Spec.
Local Open Scope nat_scope.

Section Heap.
Context {I K M : Type}.
Variable eq_dec : forall a b : I, {a = b} + {a <> b}.
Variable learn : K -> list srow -> list dense.
Variable score : K -> list srow -> list dense -> list nat -> dense.
Variable cold : K -> list srow -> list dense -> list srow -> dense.
Variable keeps : K -> bool.
Variable view : K -> bool.
Variable judge : list srow -> list dense -> M.
Variable argsort : list Eval_Model.score -> list nat.
Variable fl : Eval_Model.score -> Eval_Model.score.
Variable psort : nat -> list (nat * Eval_Model.score) -> list (nat * Eval_Model.score).
Notation heap := (heap I).
Notation get_score := (get_score score keeps).
Notation get_score_remove_seen := (get_score_remove_seen score keeps).
Notation get_score_cold := (get_score_cold cold keeps).
Notation get_score_cold_remove_seen := (get_score_cold_remove_seen cold keeps).
Notation eval_loop := (eval_loop score cold keeps).
Notation evaluate := (evaluate score cold keeps judge).

(** [h'] extends [h] and differs from it at cells in [W] only. *)
Definition grow (W : nat -> Prop) (h h' : heap) : Prop :=
  length h <= length h' /\ forall a, a < length h -> ~ W a -> nth_error h' a = nth_error h a.
Lemma grow_refl W h : grow W h h.
Proof. split; auto. Qed.
Lemma grow_app W h l : grow W h (h ++ l).
Proof. split; [rewrite app_length; lia|]. intros a Ha _. now apply nth_error_app1. Qed.
Lemma grow_weaken (W W' : nat -> Prop) h h' : (forall a, a < length h -> W a -> W' a) -> grow W h h' -> grow W' h h'.
Proof. intros HW [L E]. split; [exact L|]. intros a Ha N. apply E; auto. Qed.
Lemma grow_trans (W : nat -> Prop) h h1 h2 : grow W h h1 -> grow (fun a => W a \/ length h <= a) h1 h2 -> grow W h h2.
Proof.
  intros [L1 E1] [L2 E2]. split; [lia|]. intros a Ha N. rewrite E2; [now apply E1|lia|]. intros [C|C]; [auto|lia].
Qed.
Lemma grow_update (W : nat -> Prop) h a c : (a < length h -> W a) -> grow W h (update_nth h a c).
Proof.
  intros HW. split; [now rewrite update_nth_length|]. intros b Hb N. apply nth_error_update_nth_other. intros ->. auto.
Qed.
Lemma mat_at_eq (h h' : heap) a : nth_error h' a = nth_error h a -> mat_at h' a = mat_at h a.
Proof. unfold mat_at. now intros ->. Qed.
Lemma arr_at_eq (h h' : heap) a : nth_error h' a = nth_error h a -> arr_at h' a = arr_at h a.
Proof. unfold arr_at. now intros ->. Qed.
Lemma ids_at_eq (h h' : heap) a : nth_error h' a = nth_error h a -> ids_at h' a = ids_at h a.
Proof. unfold ids_at. now intros ->. Qed.

Lemma as_csr_grow h f a :
  let r := as_csr h f a in grow (fun _ => False) h (fst r) /\ (a < length h -> snd r < length (fst r)) /\
  match f with Csr => snd r = a | OtherFormat => snd r = length h /\ nth_error (fst r) (length h) = Some (CMat (mat_at h a)) end.
Proof.
  destruct f; cbn; [repeat split; auto|].
  split; [apply grow_app|]. rewrite app_length; cbn. split; [lia|]. split; [reflexivity|].
  rewrite nth_error_app2, Nat.sub_diag by lia. reflexivity.
Qed.
Lemma alloc_last (h : heap) c : nth_error (h ++ [c]) (length h) = Some c.
Proof. now rewrite nth_error_app2, Nat.sub_diag by lia. Qed.

(** The arrays of a keeping recommender. *)
Definition kept_arrays (rc : recommender K) (a : nat) : Prop :=
  keeps (rc_kind rc) = true /\ exists ps, rc_par rc = Some ps /\ In a ps.

Lemma get_score_grow h rc us : let r := get_score h rc us in
  grow (fun _ => False) h (fst r) /\
  match snd r with
  | Ok a => (a = length h /\ length (fst r) = S (length h)) \/ (kept_arrays rc a /\ fst r = h)
  | _ => fst r = h
  end.
Proof.
  unfold Share_Model.get_score. destruct (rc_par rc) as [ps|] eqn:P; [|split; [apply grow_refl|reflexivity]].
  destruct (forallb _ us); cbn [negb]; [|split; [apply grow_refl|reflexivity]].
  destruct (keeps (rc_kind rc)) eqn:E; [destruct ps as [|p ps]|]; cbn -[Nat.ltb].
  - split; [apply grow_app|left]. rewrite app_length; cbn; split; lia.
  - split; [apply grow_refl|right]. split; [|reflexivity]. split; [exact E|]. exists (p :: ps). split; [exact P|now left].
  - split; [apply grow_app|left]. rewrite app_length; cbn; split; lia.
Qed.
Lemma get_score_cold_grow h rc x : let r := get_score_cold h rc x in
  grow (fun _ => False) h (fst r) /\
  match snd r with
  | Ok a => (a = length h /\ length (fst r) = S (length h)) \/ (kept_arrays rc a /\ fst r = h)
  | _ => fst r = h
  end.
Proof.
  unfold Share_Model.get_score_cold. destruct (rc_par rc) as [ps|] eqn:P; [|split; [apply grow_refl|reflexivity]].
  destruct (keeps (rc_kind rc)) eqn:E; [destruct ps as [|p ps]|]; cbn -[Nat.ltb].
  - split; [apply grow_app|left]. rewrite app_length; cbn; split; lia.
  - split; [apply grow_refl|right]. split; [|reflexivity]. split; [exact E|]. exists (p :: ps). split; [exact P|now left].
  - split; [apply grow_app|left]. rewrite app_length; cbn; split; lia.
Qed.
Lemma assign_grow (W : nat -> Prop) h a mask : (a < length h -> W a) -> grow W h (fst (assign h a mask)).
Proof.
  intros HW. unfold assign. destruct (apply_mask _ _); cbn [fst]; try apply grow_refl. now apply grow_update.
Qed.

(** A scoring call followed by the assignment. *)
Lemma scored_grow h rc r mask : 
  grow (fun _ => False) h (fst r) ->
  match snd r with Ok a => (a = length h /\ length (fst r) = S (length h)) \/ (kept_arrays rc a /\ fst r = h) | _ => fst r = h end ->
  let q := match r with
           | (h1, Ok a) => let '(h2, o) := assign h1 a (mask h1) in (h2, omap (fun _ => a) o)
           | (h1, o) => (h1, o)
           end in
  grow (kept_arrays rc) h (fst q) /\
  match snd q with
  | Ok a => (a = length h /\ a < length (fst q)) \/ kept_arrays rc a
  | _ => True
  end.
Proof.
  destruct r as [h1 o]; cbn [fst snd]. intros G R.
  destruct o as [a| | |]; try (subst h1; split; [apply grow_refl|exact Logic.I]).
  assert (D := assign_grow (fun b => b = a) h1 a (mask h1) (fun _ => eq_refl)).
  destruct (assign h1 a (mask h1)) as [h2 o] eqn:A; cbn [fst snd] in *.
  assert (GG : grow (kept_arrays rc) h h2).
  { apply grow_trans with h1; [apply grow_weaken with (fun _ => False); [tauto|exact G]|].
    apply grow_weaken with (fun b => b = a); [|exact D]. intros b Hb ->. destruct R as [[-> _]|[R _]]; [right; lia|left; exact R]. }
  split; [exact GG|]. destruct o; cbn; auto. destruct R as [[-> L]|[R _]]; [left|right; exact R].
  split; [reflexivity|]. destruct D as [D _]. lia.
Qed.
Lemma remove_seen_grow h rc us : let q := get_score_remove_seen h rc us in
  grow (kept_arrays rc) h (fst q) /\
  match snd q with Ok a => (a = length h /\ a < length (fst q)) \/ kept_arrays rc a | _ => True end.
Proof.
  unfold Share_Model.get_score_remove_seen. destruct (get_score_grow h rc us) as [G R].
  exact (scored_grow h rc _ (fun h1 => map (fun u => nth u (mat_at h1 (rc_X rc)) []) us) G R).
Qed.
Lemma cold_remove_seen_grow h rc x : let q := get_score_cold_remove_seen h rc x in
  grow (kept_arrays rc) h (fst q) /\
  match snd q with Ok a => (a = length h /\ a < length (fst q)) \/ kept_arrays rc a | _ => True end.
Proof.
  unfold Share_Model.get_score_cold_remove_seen. destruct (get_score_cold_grow h rc x) as [G R].
  exact (scored_grow h rc _ (fun _ => x) G R).
Qed.
Lemma eval_loop_grow e rc blocks : forall h acc, grow (kept_arrays rc) h (fst (eval_loop h e rc blocks acc)).
Proof using Type. clear eq_dec learn view judge argsort fl psort.
  induction blocks as [|[b b'] rest IH]; intros h acc; cbn [Share_Model.eval_loop]; [apply grow_refl|].
  set (r := match ev_input e with None => _ | Some i => _ end).
  assert (GR : grow (fun _ => False) h (fst r) /\
    match snd r with Ok a => (a = length h /\ length (fst r) = S (length h)) \/ (kept_arrays rc a /\ fst r = h) | _ => fst r = h end).
  { unfold r. destruct (ev_input e); [apply get_score_cold_grow|apply get_score_grow]. }
  clearbody r. destruct r as [h1 o]. destruct GR as [G R]; cbn [fst snd] in *.
  destruct o as [a| | |]; try (subst h1; apply grow_refl).
  set (mask := match ev_mask e with None => _ | Some m => _ end).
  assert (D := assign_grow (fun c => c = a) h1 a mask (fun _ => eq_refl)).
  destruct (assign h1 a mask) as [h2 o2]; cbn [fst] in D.
  assert (GG : grow (kept_arrays rc) h h2).
  { apply grow_trans with h1; [apply grow_weaken with (fun _ => False); [tauto|exact G]|].
    apply grow_weaken with (fun b => b = a); [|exact D]. intros c Hc ->. destruct R as [[-> _]|[R _]]; [right; lia|left; exact R]. }
  destruct o2; cbn [fst]; try exact GG.
  apply grow_trans with h2; [exact GG|]. eapply grow_weaken; [|apply IH]. intros c _ C; now left.
Qed.
Lemma evaluate_grow h e rc : grow (kept_arrays rc) h (fst (evaluate h e rc)).
Proof.
  unfold Share_Model.evaluate. generalize (eval_loop_grow e rc (ev_blocks e) h []). destruct (eval_loop h e rc (ev_blocks e) []). exact (fun G => G).
Qed.
Lemma embedding_grow h rc n : let q := embedding view h rc n in
  grow (fun _ => False) h (fst q) /\
  match snd q with
  | Ok a => (a = length h /\ a < length (fst q)) \/ (view (rc_kind rc) = true /\ exists ps, rc_par rc = Some ps /\ In a ps)
  | _ => True
  end.
Proof.
  unfold embedding. destruct (rc_par rc) as [ps|]; [|split; [apply grow_refl|exact Logic.I]].
  destruct (nth_error ps n) as [a|] eqn:E; [|split; [apply grow_refl|exact Logic.I]].
  destruct (view (rc_kind rc)); cbn.
  - split; [apply grow_refl|right]. split; [reflexivity|]. exists ps. split; [reflexivity|exact (nth_error_In _ _ E)].
  - split; [apply grow_app|left]. rewrite app_length; cbn. split; [reflexivity|lia].
Qed.

(** ** Owners of cells *)
Inductive owner := OCaller | OTrain (r : nat) | OLearnt (r : nat) | OEval (e : nat) | OTemp.

Record inv (own : nat -> owner) (s : state I K) : Prop := {
  inv_known : forall a, In a (s_known s) -> a < length (s_heap s) /\ (own a = OCaller \/ exists r, own a = OLearnt r);
  inv_rec : forall r rc, nth_error (s_recs s) r = Some rc ->
    (rc_X rc < length (s_heap s) /\ own (rc_X rc) = OTrain r) /\
    forall ps p, rc_par rc = Some ps -> In p ps -> p < length (s_heap s) /\ own p = OLearnt r;
  inv_eval : forall e ev, nth_error (s_evals s) e = Some ev ->
    (ev_gt ev < length (s_heap s) /\ own (ev_gt ev) = OEval e) /\
    (forall m, ev_mask ev = Some m -> m < length (s_heap s) /\ (own m = OEval e \/ In m (s_known s))) /\
    (forall i, ev_input ev = Some i -> In i (s_known s));
  inv_map : forall m im, nth_error (s_maps s) m = Some im -> In (im_ids im) (s_known s) }.

(** What a permitted step does to the cells and to the knowledge of the caller. *)
Record effect (s : state I K) (act : action I K) (s' : state I K) : Prop := {
  eff_grow : grow (fun a => (exists c, act = Write a c) \/
                            (exists m cu al pu fo n l sc, act = RecommendBatch m a cu al pu fo n l sc) \/
                            exists r rc, nth_error (s_recs s) r = Some rc /\ kept_arrays rc a) (s_heap s) (s_heap s');
  eff_known : forall a, In a (s_known s') -> In a (s_known s) \/ length (s_heap s) <= a < length (s_heap s') \/
      exists r rc, nth_error (s_recs s) r = Some rc /\
        (kept_arrays rc a \/ ((exists n, act = Embedding r n) /\ view (rc_kind rc) = true /\ exists ps, rc_par rc = Some ps /\ In a ps));
  eff_known_more : forall a, In a (s_known s) -> In a (s_known s');
  eff_recs : forall r rc, nth_error (s_recs s) r = Some rc ->
      if match act with Learn r' => r' =? r | _ => false end then
        exists ps, nth_error (s_recs s') r = Some (mkRecommender (rc_kind rc) (rc_X rc) (Some ps)) /\
          (forall p, In p ps -> length (s_heap s) <= p < length (s_heap s')) /\
          map (nth_error (s_heap s')) ps = map (fun d => Some (CArr d)) (learn (rc_kind rc) (mat_at (s_heap s) (rc_X rc)))
      else nth_error (s_recs s') r = Some rc;
  eff_evals : forall e ev, nth_error (s_evals s) e = Some ev -> nth_error (s_evals s') e = Some ev;
  eff_maps : forall m im, nth_error (s_maps s) m = Some im -> nth_error (s_maps s') m = Some im }.

Notation step := (step eq_dec learn score cold keeps view judge argsort fl psort).
Notation run := (run eq_dec learn score cold keeps view judge argsort fl psort).
Notation next := (fun s act => fst (step s act)).

Lemma make_rec_grow (h : heap) (k : K) f a : let q := make_rec h k f a in
  grow (fun _ => False) h (fst q) /\ rc_kind (snd q) = k /\ rc_par (snd q) = None /\
  length h <= rc_X (snd q) < length (fst q) /\ (a < length h -> nth_error (fst q) (rc_X (snd q)) = Some (CMat (mat_at h a))).
Proof using Type. clear eq_dec learn score cold keeps view judge argsort fl psort.
  unfold make_rec, astype, alloc. destruct (as_csr_grow h f a) as (G & L & E). destruct (as_csr h f a) as [h1 b]; cbn [fst snd] in *.
  split; [apply grow_trans with h1; [exact G|apply grow_app]|]. split; [reflexivity|]. split; [reflexivity|]. cbn [rc_X].
  rewrite app_length; cbn. split; [destruct G; lia|]. intros Ha. rewrite alloc_last. do 2 f_equal.
  destruct f; [subst b; apply mat_at_eq, G; [lia|tauto]|]. destruct E as [-> E]. unfold mat_at at 1. now rewrite E.
Qed.
Lemma do_learn_grow (h : heap) (rc : recommender K) : let q := do_learn learn h rc in
  grow (fun _ => False) h (fst q) /\
  exists ps, snd q = mkRecommender (rc_kind rc) (rc_X rc) (Some ps) /\ (forall p, In p ps -> length h <= p < length (fst q)) /\
    map (nth_error (fst q)) ps = map (fun d => Some (CArr d)) (learn (rc_kind rc) (mat_at h (rc_X rc))).
Proof.
  unfold do_learn, alloc_all; cbn. split; [apply grow_app|]. eexists. split; [reflexivity|]. rewrite map_length.
  split; [intros p Hp; apply in_seq in Hp; rewrite app_length, map_length; lia|].
  set (l := learn _ _). clearbody l. apply nth_ext with None None; [now rewrite !map_length, seq_length|].
  rewrite map_length, seq_length. intros n Hn.
  rewrite (nth_indep _ None (nth_error (h ++ map CArr l) 0)) by (now rewrite map_length, seq_length).
  rewrite map_nth, seq_nth by exact Hn. rewrite nth_error_app2 by lia. replace (length h + n - length h) with n by lia.
  rewrite (nth_indep _ None (Some (CArr (mkDense 0 [])))) by (now rewrite map_length).
  rewrite (map_nth (fun d => Some (CArr d))). rewrite nth_error_map, (nth_error_nth' l (mkDense 0 [])) by exact Hn. reflexivity.
Qed.
Lemma make_eval_grow (h : heap) gt mask off bl : let q := make_eval h gt mask off bl in
  grow (fun _ => False) h (fst q) /\ (length h <= ev_gt (snd q) < length (fst q)) /\
  nth_error (fst q) (ev_gt (snd q)) = Some (CMat (mat_at h gt)) /\ ev_input (snd q) = None /\ ev_offset (snd q) = off /\ ev_blocks (snd q) = bl /\
  match mask with
  | None => ev_mask (snd q) = None
  | Some (Csr, m) => ev_mask (snd q) = Some m
  | Some (OtherFormat, m) => exists m', ev_mask (snd q) = Some m' /\ length h <= m' < length (fst q) /\
      (m < length h -> nth_error (fst q) m' = Some (CMat (mat_at h m)))
  end.
Proof using Type. clear eq_dec learn score cold keeps view judge argsort fl psort.
  unfold make_eval, astype, alloc. destruct mask as [[f m]|]; cbn.
  - destruct (as_csr_grow (h ++ [CMat (mat_at h gt)]) f m) as (G & L & E).
    destruct (as_csr (h ++ [CMat (mat_at h gt)]) f m) as [h2 m']; cbn [fst snd] in *.
    assert (L2 := proj1 G). rewrite app_length in L2; cbn in L2.
    split; [apply grow_trans with (h ++ [CMat (mat_at h gt)]); [apply grow_app|eapply grow_weaken; [|exact G]; cbn; tauto]|]. cbn.
    split; [lia|]. split; [rewrite (proj2 G) by (try tauto; rewrite app_length; cbn; lia); apply alloc_last|]. repeat (split; [reflexivity|]).
    destruct f; [now subst m'|]. destruct E as [-> E]. eexists. split; [reflexivity|].
    assert (length (h ++ [CMat (mat_at h gt)]) < length h2) by (apply nth_error_Some; congruence).
    rewrite app_length in *; cbn in *. split; [lia|]. intros Hm. rewrite E. do 2 f_equal. apply mat_at_eq. now apply nth_error_app1.
  - split; [apply grow_app|]. rewrite app_length; cbn. split; [lia|]. split; [apply alloc_last|]. repeat split.
Qed.
Lemma make_cold_eval_grow (h : heap) fi i gt mask bl : let q := make_cold_eval h fi i gt mask bl in
  grow (fun _ => False) h (fst q) /\ (length h <= ev_gt (snd q) < length (fst q)) /\
  nth_error (fst q) (ev_gt (snd q)) = Some (CMat (mat_at h gt)) /\ ev_input (snd q) = Some i /\ ev_offset (snd q) = 0 /\ ev_blocks (snd q) = bl /\
  match (match mask with None => (fi, i) | Some fm => fm end) with
  | (Csr, m) => ev_mask (snd q) = Some m
  | (OtherFormat, m) => exists m', ev_mask (snd q) = Some m' /\ length h <= m' < length (fst q) /\
      (m < length h -> nth_error (fst q) m' = Some (CMat (mat_at h m)))
  end.
Proof using Type. clear eq_dec learn score cold keeps view judge argsort fl psort.
  unfold make_cold_eval. destruct (make_eval_grow h gt mask 0 bl) as (G & L & E & In0 & O & B & Mk).
  destruct (make_eval h gt mask 0 bl) as [h1 e]; cbn [fst snd] in *.
  destruct mask as [[f m]|].
  - destruct f; [rewrite Mk; cbn; now repeat (split; [assumption || reflexivity|])|].
    destruct Mk as (m' & Mk & R). rewrite Mk; cbn. repeat (split; [assumption || reflexivity|]). exists m'. now split.
  - rewrite Mk. destruct (as_csr_grow h1 fi i) as (G2 & L2 & E2). destruct (as_csr h1 fi i) as [h2 m]; cbn [fst snd] in *.
    assert (Le := proj1 G2).
    split; [apply grow_trans with h1; [exact G|eapply grow_weaken; [|exact G2]; cbn; tauto]|].
    split; [cbn; lia|]. split; [cbn; rewrite (proj2 G2) by (tauto || lia); exact E|]. repeat (split; [reflexivity|]).
    destruct fi; [cbn; now subst m|]. destruct E2 as [-> E2]. exists (length h1). split; [reflexivity|].
    assert (length h1 < length h2) by (apply nth_error_Some; congruence). destruct G as [G0 G1].
    split; [lia|]. intros Hi. rewrite E2. do 2 f_equal. apply mat_at_eq, G1; [exact Hi|tauto].
Qed.

Lemma effect_score s act r rc q :
  nth_error (s_recs s) r = Some rc -> (forall r', act <> Learn r') ->
  grow (kept_arrays rc) (s_heap s) (fst q) ->
  match snd q with
  | Ok a => (a = length (s_heap s) /\ a < length (fst q)) \/ kept_arrays rc a \/
            ((exists n, act = Embedding r n) /\ view (rc_kind rc) = true /\ exists ps, rc_par rc = Some ps /\ In a ps)
  | _ => True end ->
  effect s act (fst (learn_more (M := M) s q)).
Proof.
  intros Hr NL G R. destruct q as [h o]; cbn [fst snd] in *.
  assert (GG : grow (fun a => (exists c, act = Write a c) \/ (exists m cu al pu fo n l sc, act = RecommendBatch m a cu al pu fo n l sc) \/
                              exists r rc, nth_error (s_recs s) r = Some rc /\ kept_arrays rc a) (s_heap s) h).
  { eapply grow_weaken; [|exact G]. intros a _ Ka. right; right. now exists r, rc. }
  assert (NB : forall x rc0, nth_error (s_recs s) x = Some rc0 ->
    (if match act with Learn r' => r' =? x | _ => false end then
        exists ps, nth_error (s_recs s) x = Some (mkRecommender (rc_kind rc0) (rc_X rc0) (Some ps)) /\
          (forall p, In p ps -> length (s_heap s) <= p < length h) /\
          map (nth_error h) ps = map (fun d => Some (CArr d)) (learn (rc_kind rc0) (mat_at (s_heap s) (rc_X rc0)))
      else nth_error (s_recs s) x = Some rc0)).
  { intros x rc0 Hx. destruct act; try exact Hx. now elim (NL r0). }
  destruct o as [a| | |]; cbn; constructor; cbn; auto.
  intros b [<-|Hb]; [|now left]. right. destruct R as [[-> R]|[R|R]]; [left; lia|right..].
  - exists r, rc. split; [exact Hr|now left].
  - exists r, rc. split; [exact Hr|now right].
Qed.
Lemma effect_plain s act s' : (forall r', act <> Learn r') -> (forall r rc, nth_error (s_recs s) r = Some rc -> nth_error (s_recs s') r = Some rc) ->
  (forall e ev, nth_error (s_evals s) e = Some ev -> nth_error (s_evals s') e = Some ev) ->
  (forall m im, nth_error (s_maps s) m = Some im -> nth_error (s_maps s') m = Some im) ->
  (forall a, In a (s_known s) -> In a (s_known s')) ->
  (forall a, In a (s_known s') -> In a (s_known s) \/ length (s_heap s) <= a < length (s_heap s')) ->
  grow (fun a => (exists c, act = Write a c) \/
                 (exists m cu al pu fo n l sc, act = RecommendBatch m a cu al pu fo n l sc) \/
                 exists r rc, nth_error (s_recs s) r = Some rc /\ kept_arrays rc a) (s_heap s) (s_heap s') ->
  effect s act s'.
Proof.
  intros NL Hr He Hm K1 K2 G. constructor; auto.
  - intros a Ha. destruct (K2 a Ha); auto.
  - intros r rc Hx. destruct act; try (now apply Hr). now elim (NL r0).
Qed.
Lemma nth_error_app_some {X} (l l' : list X) n x : nth_error l n = Some x -> nth_error (l ++ l') n = Some x.
Proof. intros H. rewrite nth_error_app1; [exact H|]. apply nth_error_Some. congruence. Qed.

Lemma step_effect s act : effect s act (fst (step s act)).
Proof.
  destruct act; cbn [Share_Model.step].
  - apply effect_plain; cbn; try discriminate; auto; [|apply grow_app]. intros a [<-|Ha]; [right; rewrite app_length; cbn; lia|now left].
  - apply effect_plain; cbn; try discriminate; auto. apply grow_update. intros _. left. now exists c.
  - destruct (make_rec_grow (s_heap s) k f a) as (G & _). destruct (make_rec (s_heap s) k f a) as [h1 rc]; cbn in *.
    apply effect_plain; cbn; try discriminate; auto; [intros; now apply nth_error_app_some|eapply grow_weaken; [|exact G]; cbn; tauto].
  - destruct (nth_error (s_recs s) r) as [rc|] eqn:E; [|constructor; cbn; auto; [apply grow_refl|]].
    + destruct (do_learn_grow (s_heap s) rc) as (G & ps & P1 & P2 & P3). destruct (do_learn learn (s_heap s) rc) as [h1 rc'] eqn:D. cbn [fst snd] in *. subst rc'.
      constructor; cbn [s_heap s_known s_recs s_evals s_maps fst]; auto.
      * eapply grow_weaken; [|exact G]; cbn; tauto.
      * intros r0 rc0 H0. destruct (r =? r0) eqn:Er.
        -- apply Nat.eqb_eq in Er. subst r0. rewrite E in H0. injection H0 as <-. exists ps. split; [|now split].
           now apply nth_error_update_nth_same with rc.
        -- apply Nat.eqb_neq in Er. rewrite nth_error_update_nth_other by congruence. exact H0.
    + intros r0 rc0 H0. destruct (r =? r0) eqn:Er; [|exact H0]. apply Nat.eqb_eq in Er. congruence.
  - destruct (nth_error (s_recs s) r) as [rc|] eqn:E; [|now apply effect_plain; try discriminate; auto; apply grow_refl].
    destruct (get_score_grow (s_heap s) rc us) as (G & R).
    apply (effect_score s _ r rc _ E); [discriminate|eapply grow_weaken; [|exact G]; cbn; tauto|].
    destruct (snd (get_score (s_heap s) rc us)); auto. destruct R as [[-> R]|[R _]]; [left; rewrite R; split; lia|right; left; exact R].
  - destruct (nth_error (s_recs s) r) as [rc|] eqn:E; [|now apply effect_plain; try discriminate; auto; apply grow_refl].
    destruct (remove_seen_grow (s_heap s) rc us) as (G & R).
    apply (effect_score s _ r rc _ E); [discriminate|exact G|].
    destruct (snd (get_score_remove_seen (s_heap s) rc us)); auto. tauto.
  - destruct (nth_error (s_recs s) r) as [rc|] eqn:E; [|now apply effect_plain; try discriminate; auto; apply grow_refl].
    destruct (get_score_cold_grow (s_heap s) rc (mat_at (s_heap s) a)) as (G & R).
    apply (effect_score s _ r rc _ E); [discriminate|eapply grow_weaken; [|exact G]; cbn; tauto|].
    destruct (snd (get_score_cold (s_heap s) rc (mat_at (s_heap s) a))); auto. destruct R as [[-> R]|[R _]]; [left; rewrite R; split; lia|right; left; exact R].
  - destruct (nth_error (s_recs s) r) as [rc|] eqn:E; [|now apply effect_plain; try discriminate; auto; apply grow_refl].
    destruct (cold_remove_seen_grow (s_heap s) rc (mat_at (s_heap s) a)) as (G & R).
    apply (effect_score s _ r rc _ E); [discriminate|exact G|].
    destruct (snd (get_score_cold_remove_seen (s_heap s) rc (mat_at (s_heap s) a))); auto. tauto.
  - destruct (nth_error (s_recs s) r) as [rc|] eqn:E; [|now apply effect_plain; try discriminate; auto; apply grow_refl].
    destruct (embedding_grow (s_heap s) rc n) as (G & R).
    apply (effect_score s _ r rc _ E); [discriminate|eapply grow_weaken; [|exact G]; cbn; tauto|].
    destruct (snd (embedding view (s_heap s) rc n)); auto. destruct R as [R|R]; [now left|right; right]. split; [now exists n|exact R].
  - destruct (make_eval_grow (s_heap s) gt mask offset blocks) as (G & _). destruct (make_eval (s_heap s) gt mask offset blocks) as [h1 e]; cbn in *.
    apply effect_plain; cbn; try discriminate; auto; [intros; now apply nth_error_app_some|eapply grow_weaken; [|exact G]; cbn; tauto].
  - destruct (make_cold_eval_grow (s_heap s) fi input gt mask blocks) as (G & _). destruct (make_cold_eval (s_heap s) fi input gt mask blocks) as [h1 e]; cbn in *.
    apply effect_plain; cbn; try discriminate; auto; [intros; now apply nth_error_app_some|eapply grow_weaken; [|exact G]; cbn; tauto].
  - destruct (nth_error (s_evals s) e) as [ev|] eqn:Ee; [|now apply effect_plain; try discriminate; auto; apply grow_refl].
    destruct (nth_error (s_recs s) r) as [rc|] eqn:E; [|now apply effect_plain; try discriminate; auto; apply grow_refl].
    assert (G := evaluate_grow (s_heap s) ev rc). destruct (evaluate (s_heap s) ev rc) as [h1 o]; cbn in *.
    apply effect_plain; cbn; try discriminate; auto. eapply grow_weaken; [|exact G]. intros a _ Ka. right; right. now exists r, rc.
  - destruct (make_mapper eq_dec (ids_at (s_heap s) a)); cbn; apply effect_plain; cbn; try discriminate; auto; try apply grow_refl.
    intros; now apply nth_error_app_some.
  - destruct (nth_error (s_maps s) m); cbn; apply effect_plain; cbn; try discriminate; auto; apply grow_refl.
  - destruct (nth_error (s_maps s) m) as [im|]; [|now apply effect_plain; try discriminate; auto; apply grow_refl].
    destruct (nth_error (s_heap s) a) as [[|?|d]|]; try (now apply effect_plain; try discriminate; auto; apply grow_refl).
    destruct (recommended_items_batch _ _ _ _ _ _ _ _ _ _ _) as [rows o]; cbn. apply effect_plain; cbn; try discriminate; auto.
    apply grow_update. intros _. right; left. repeat eexists.
Qed.
End Heap.
