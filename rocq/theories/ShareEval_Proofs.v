(** Evaluations and mappers over shared objects. *)
From Verif Require Import Base Sched_Model Sched_Proofs Eval_Model EvalPy_Model Eval_Spec EvalPy_Proofs Rec_Model Rec_Proofs Share_Model Share_Spec Share_Proofs ShareApi_Proofs.
Local Open Scope nat_scope.

Section Api.
Context {I K M : Type}.
Variable eq_dec : forall a b : I, {a = b} + {a <> b}.
Variable learn : K -> list srow -> list dense.
Variable score : K -> list srow -> list dense -> list nat -> dense.
Variable cold : K -> list srow -> list dense -> list srow -> dense.
Variable keeps : K -> bool.
Variable view : K -> bool.
Variable judge : list srow -> list dense -> M.
Variable argsort : list Eval_Model.score -> list nat.
Variable fl : Eval_Model.score -> Eval_Model.score.
Variable psort : nat -> list (nat * Eval_Model.score) -> list (nat * Eval_Model.score).
Notation step := (step eq_dec learn score cold keeps view judge argsort fl psort).
Notation run := (run eq_dec learn score cold keeps view judge argsort fl psort).
Notation next := (fun s act => fst (step s act)).
Notation permitted := (permitted next).
Notation effect := (effect learn keeps view).
Notation allowed s act := (Forall (fun a => In a (s_known s)) (uses act)).
Notation eff := (eff eq_dec learn score cold keeps view judge argsort fl psort).
Notation inv_step := (inv_step eq_dec learn score cold keeps view judge argsort fl psort).
Notation inv_run := (inv_run eq_dec learn score cold keeps view judge argsort fl psort).

(** ** The loops *)
Section Loop.
Variables (rc : recommender K) (ps : list nat) (X : list srow) (D : list dense).
Hypothesis Hk : keeps (rc_kind rc) = false.
Hypothesis Hps : rc_par rc = Some ps.

Definition ready (h : heap I) : Prop :=
  mat_at h (rc_X rc) = X /\ rc_X rc < length h /\ (forall p, In p ps -> p < length h) /\ map (arr_at h) ps = D.
Lemma ready_app h c : ready h -> ready (h ++ [c]).
Proof.
  intros (H1 & H2 & H3 & H4). unfold ready. rewrite app_length; cbn. rewrite mat_at_app by exact H2.
  split; [exact H1|]. split; [lia|]. split; [intros p Hp; specialize (H3 p Hp); lia|]. rewrite <- H4. apply map_ext_in. intros p Hp.
  apply arr_at_eq. apply nth_error_app1. now apply H3.
Qed.

Lemma omap_app_nil {A} (o : outcome (list A)) : omap (app []) o = o.
Proof. now destruct o. Qed.
Lemma omap_omap {A B C} (f : B -> C) (g : A -> B) (o : outcome A) : omap f (omap g o) = omap (fun x => f (g x)) o.
Proof. now destruct o. Qed.
Lemma loop_tail {A} (acc : list A) d o : omap (app (acc ++ [d])) o = omap (app acc) (omap (cons d) o).
Proof. rewrite omap_omap. destruct o; cbn; try reflexivity. now rewrite <- app_assoc. Qed.
Lemma arr_at_last (h : heap I) d : arr_at (h ++ [CArr d]) (length h) = d.
Proof. unfold arr_at. now rewrite alloc_last. Qed.

Lemma eval_loop_hot e W off blocks : ev_input e = None -> forall h acc, ready h ->
  match ev_mask e with None => W = X /\ off = 0 | Some m => m < length h /\ mat_at h m = W /\ off = ev_offset e end ->
  snd (eval_loop score cold keeps h e rc blocks acc) =
  omap (app acc) (judged (length X) (fun b b' => score (rc_kind rc) X D (seq b (b' - b))) W off blocks).
Proof.
  intros Hi. induction blocks as [|[b b'] blocks IH]; intros h acc R Hm; cbn [eval_loop].
  - cbn. now rewrite app_nil_r.
  - rewrite Hi. unfold judged. cbn [map oall fst snd].
    destruct R as (R1 & R2 & R3 & R4). assert (R : ready h) by (now repeat split).
    destruct (forallb (fun u => u <? length X) (seq b (b' - b))) eqn:F.
    2:{ unfold get_score. rewrite Hps, R1, F. reflexivity. }
    rewrite (get_score_new score keeps _ _ _ ps) by (try assumption; rewrite R1; intros u Hu; rewrite forallb_forall in F; now apply Nat.ltb_lt, F).
    assert (EM : (match ev_mask e with None => slice (mat_at (h ++ [CArr (score (rc_kind rc) (mat_at h (rc_X rc)) (map (arr_at h) ps) (seq b (b' - b)))]) (rc_X rc)) b b'
                  | Some m => slice (mat_at (h ++ [CArr (score (rc_kind rc) (mat_at h (rc_X rc)) (map (arr_at h) ps) (seq b (b' - b)))]) m) (b - ev_offset e) (b' - ev_offset e) end)
                 = slice W (b - off) (b' - off)).
    { destruct (ev_mask e) as [m|]; [destruct Hm as (M1 & M2 & ->)|destruct Hm as (-> & ->)]; rewrite mat_at_app by assumption; [now rewrite M2|].
      now rewrite R1, !Nat.sub_0_r. }
    rewrite EM, assign_new, R1, R4. destruct (apply_mask _ _) as [d'| | |] eqn:Ea; cbn [obind omap snd]; try reflexivity.
    rewrite IH, arr_at_last; [apply loop_tail|now apply ready_app|].
    destruct (ev_mask e) as [m|]; [|exact Hm]. destruct Hm as (M1 & M2 & M3). rewrite app_length, mat_at_app by exact M1. cbn. split; [lia|auto].
Qed.
Lemma eval_loop_cold e i m inp W blocks : ev_input e = Some i -> ev_mask e = Some m -> ev_offset e = 0 -> forall h acc, ready h ->
  i < length h -> mat_at h i = inp -> m < length h -> mat_at h m = W ->
  snd (eval_loop score cold keeps h e rc blocks acc) = omap (app acc) (judged_cold (cold (rc_kind rc) X D) inp W blocks).
Proof.
  intros Hi Hm Ho. induction blocks as [|[b b'] blocks IH]; intros h acc R I1 I2 M1 M2; cbn [eval_loop].
  - cbn. now rewrite app_nil_r.
  - rewrite Hi, Hm, Ho. unfold judged_cold. cbn [map oall fst snd].
    destruct R as (R1 & R2 & R3 & R4). assert (R : ready h) by (now repeat split).
    rewrite (get_score_cold_new cold keeps _ _ _ ps) by assumption.
    rewrite mat_at_app by exact M1. rewrite assign_new, R1, R4, I2, M2, !Nat.sub_0_r.
    destruct (apply_mask _ _) as [d'| | |] eqn:Ea; cbn [obind omap snd]; try reflexivity.
    rewrite IH, arr_at_last; [apply loop_tail|now apply ready_app|..];
      try (rewrite app_length; cbn; lia); now rewrite mat_at_app.
Qed.
Lemma no_kept a : ~ kept_arrays keeps rc a.
Proof. intros [C _]. congruence. Qed.
Lemma evaluate_gt (h : heap I) e : ev_gt e < length h -> mat_at (fst (eval_loop score cold keeps h e rc (ev_blocks e) [])) (ev_gt e) = mat_at h (ev_gt e).
Proof. intros L. apply mat_at_eq, (eval_loop_grow score cold keeps e rc (ev_blocks e) h []); [exact L|apply no_kept]. Qed.
Lemma evaluate_snd (h : heap I) e o : ev_gt e < length h -> snd (eval_loop score cold keeps h e rc (ev_blocks e) []) = o ->
  snd (evaluate score cold keeps judge h e rc) = omap (judge (mat_at h (ev_gt e))) o.
Proof.
  intros L E. unfold evaluate. rewrite <- (evaluate_gt h e L), <- E. now destruct (eval_loop score cold keeps h e rc (ev_blocks e) []).
Qed.
End Loop.

(** ** The evaluators *)
Lemma eval_run acts : forall own (s : state I K) e ev, inv own s -> permitted s acts -> nth_error (s_evals s) e = Some ev ->
  nth_error (s_evals (run s acts)) e = Some ev /\ length (s_heap s) <= length (s_heap (run s acts)) /\
  forall a, a < length (s_heap s) -> own a = OEval e -> nth_error (s_heap (run s acts)) a = nth_error (s_heap s) a.
Proof.
  induction acts as [|act acts IH]; intros own s e ev H P E; [cbn; auto|]. destruct P as [A P].
  destruct (inv_step own s act H A) as (own' & Ag & H').
  destruct (IH own' _ e ev H' P (eff_evals learn keeps view s act _ (eff s act) e ev E)) as (I1 & I2 & I3).
  destruct (eff_grow learn keeps view s act _ (eff s act)) as [L _].
  split; [exact I1|]. change (run s (act :: acts)) with (run (fst (step s act)) acts). split; [lia|]. intros a La Oa. rewrite I3 by (try lia; rewrite Ag by exact La; exact Oa).
  apply (owned_kept eq_dec learn score cold keeps view judge argsort fl psort own s act a H A La). right. now exists e.
Qed.
Lemma known_run acts : forall (s : state I K) a, In a (s_known s) -> In a (s_known (run s acts)).
Proof.
  induction acts as [|act acts IH]; intros s a H; [exact H|]. apply (IH (fst (step s act)) a).
  now apply (eff_known_more learn keeps view s act _ (eff s act)).
Qed.

Definition mask_rows (h0 h : heap I) (mask : format * nat) : list srow :=
  match mask with (Csr, m) => mat_at h m | (OtherFormat, m) => mat_at h0 m end.

Lemma built_eval A gt mask off bl B :
  let s0 := run init_state A in
  let s := run init_state (A ++ NewEval gt mask off bl :: B) in
  permitted init_state (A ++ NewEval gt mask off bl :: B) ->
  exists ev, nth_error (s_evals s) (length (s_evals s0)) = Some ev /\ ev_input ev = None /\ ev_offset ev = off /\ ev_blocks ev = bl /\
    ev_gt ev < length (s_heap s) /\ mat_at (s_heap s) (ev_gt ev) = mat_at (s_heap s0) gt /\
    match mask with None => ev_mask ev = None
    | Some fm => exists m, ev_mask ev = Some m /\ m < length (s_heap s) /\ mat_at (s_heap s) m = mask_rows (s_heap s0) (s_heap s) fm end.
Proof.
  intros s0 s P. apply permitted_app in P. destruct P as [PA P]. fold s0 in P. destruct P as [Au PB].
  destruct (inv_run A _ _ inv_init PA) as [own H0]. fold s0 in H0.
  destruct (inv_step own s0 _ H0 Au) as (own1 & Ag & H1).
  assert (E : s = run (fst (step s0 (NewEval gt mask off bl))) B) by (unfold s; rewrite run_app; reflexivity).
  destruct (make_eval_grow (s_heap s0) gt mask off bl) as (G & P1 & P2 & P3 & P4 & P5 & P6).
  assert (Hev : nth_error (s_evals (fst (step s0 (NewEval gt mask off bl)))) (length (s_evals s0)) = Some (snd (make_eval (s_heap s0) gt mask off bl)) /\
                s_heap (fst (step s0 (NewEval gt mask off bl))) = fst (make_eval (s_heap s0) gt mask off bl)).
  { cbn [Share_Model.step]. destruct (make_eval (s_heap s0) gt mask off bl) as [h1 ev]; cbn. split; [now rewrite nth_error_app2, Nat.sub_diag by lia|reflexivity]. }
  destruct Hev as [Hev Hh]. set (ev := snd (make_eval (s_heap s0) gt mask off bl)) in *. exists ev.
  destruct (eval_run B own1 _ _ _ H1 PB Hev) as (R1 & R2 & R3). rewrite <- E in R1, R2, R3. rewrite Hh in R2, R3.
  destruct (inv_eval own1 _ H1 _ _ Hev) as ((V1 & V2) & V3 & _). rewrite Hh in V1, V3.
  split; [exact R1|]. split; [exact P3|]. split; [exact P4|]. split; [exact P5|]. split; [lia|].
  split; [unfold mat_at at 1; rewrite R3 by assumption; now rewrite P2|].
  destruct mask as [[[] m]|]; [..|exact P6].
  - exists m. split; [exact P6|]. destruct (V3 m P6) as [V4 _]. split; [lia|reflexivity].
  - destruct P6 as (m' & P6 & P7 & P8). exists m'. split; [exact P6|]. destruct (V3 m' P6) as [V4 V5]. split; [lia|].
    assert (Lm : m < length (s_heap s0)). { cbn in Au. inversion_clear Au as [|? ? _ A']. inversion_clear A'. now destruct (inv_known own s0 H0 m). }
    assert (Om : own1 m' = OEval (length (s_evals s0))).
    { destruct V5 as [V5|V5]; [exact V5|]. exfalso. cbn [Share_Model.step] in V5. destruct (make_eval (s_heap s0) gt (Some (OtherFormat, m)) off bl) as [h1 e1]; cbn in V5.
      destruct (inv_known own s0 H0 m' V5). lia. }
    unfold mat_at at 1. rewrite R3 by assumption. now rewrite P8.
Qed.

Lemma built_cold_eval A fi input gt mask bl B :
  let s0 := run init_state A in
  let s := run init_state (A ++ NewColdEval fi input gt mask bl :: B) in
  permitted init_state (A ++ NewColdEval fi input gt mask bl :: B) ->
  exists ev m, nth_error (s_evals s) (length (s_evals s0)) = Some ev /\ ev_input ev = Some input /\ ev_offset ev = 0 /\ ev_blocks ev = bl /\
    ev_gt ev < length (s_heap s) /\ mat_at (s_heap s) (ev_gt ev) = mat_at (s_heap s0) gt /\ input < length (s_heap s) /\
    ev_mask ev = Some m /\ m < length (s_heap s) /\
    mat_at (s_heap s) m = mask_rows (s_heap s0) (s_heap s) (match mask with None => (fi, input) | Some fm => fm end).
Proof.
  intros s0 s P. apply permitted_app in P. destruct P as [PA P]. fold s0 in P. destruct P as [Au PB].
  destruct (inv_run A _ _ inv_init PA) as [own H0]. fold s0 in H0.
  destruct (inv_step own s0 _ H0 Au) as (own1 & Ag & H1).
  assert (E : s = run (fst (step s0 (NewColdEval fi input gt mask bl))) B) by (unfold s; rewrite run_app; reflexivity).
  destruct (make_cold_eval_grow (s_heap s0) fi input gt mask bl) as (G & P1 & P2 & P3 & P4 & P5 & P6).
  assert (Hev : nth_error (s_evals (fst (step s0 (NewColdEval fi input gt mask bl)))) (length (s_evals s0)) = Some (snd (make_cold_eval (s_heap s0) fi input gt mask bl)) /\
                s_heap (fst (step s0 (NewColdEval fi input gt mask bl))) = fst (make_cold_eval (s_heap s0) fi input gt mask bl) /\
                s_known (fst (step s0 (NewColdEval fi input gt mask bl))) = s_known s0).
  { cbn [Share_Model.step]. destruct (make_cold_eval (s_heap s0) fi input gt mask bl) as [h1 ev]; cbn. split; [now rewrite nth_error_app2, Nat.sub_diag by lia|auto]. }
  destruct Hev as (Hev & Hh & Hkn). set (ev := snd (make_cold_eval (s_heap s0) fi input gt mask bl)) in *.
  destruct (eval_run B own1 _ _ _ H1 PB Hev) as (R1 & R2 & R3). rewrite <- E in R1, R2, R3. rewrite Hh in R2, R3.
  destruct (inv_eval own1 _ H1 _ _ Hev) as ((V1 & V2) & V3 & _). rewrite Hh in V1, V3. rewrite Hkn in V3.
  assert (Ai : In input (s_known s0)) by (cbn in Au; now inversion Au).
  assert (Am : In (snd (match mask with None => (fi, input) | Some fm => fm end)) (s_known s0)).
  { destruct mask as [[f m]|]; [|exact Ai]. cbn in Au. inversion_clear Au as [|? ? _ A']. inversion_clear A' as [|? ? _ A'']. now inversion_clear A''. }
  assert (Li : input < length (s_heap s0)) by (now destruct (inv_known own s0 H0 input)).
  destruct G as [G _].
  destruct (match mask with None => (fi, input) | Some fm => fm end) as [[] m] eqn:Em; cbn [snd] in Am.
  - exists ev, m. destruct (V3 m P6) as [V4 _]. repeat (split; [assumption|]). split; [lia|].
    split; [unfold mat_at at 1; rewrite R3 by assumption; now rewrite P2|]. split; [lia|]. split; [exact P6|]. split; [lia|reflexivity].
  - destruct P6 as (m' & P6 & P7 & P8). exists ev, m'. destruct (V3 m' P6) as [V4 V5].
    repeat (split; [assumption|]). split; [lia|].
    split; [unfold mat_at at 1; rewrite R3 by assumption; now rewrite P2|]. split; [lia|]. split; [exact P6|]. split; [lia|].
    assert (Lm : m < length (s_heap s0)) by (now destruct (inv_known own s0 H0 m)).
    assert (Om : own1 m' = OEval (length (s_evals s0))).
    { destruct V5 as [V5|V5]; [exact V5|]. exfalso. destruct (inv_known own s0 H0 m' V5). lia. }
    unfold mat_at at 1. rewrite R3 by assumption. now rewrite P8.
Qed.

Section Both.
Variables (P A B A' B' : list (action I K)) (k : K) (f : format) (a : nat) (X : list srow).
Let s := run init_state P.
Let s0 := run init_state A.
Let s1 := run init_state A'.
Let r := length (s_recs s0).
Let e := length (s_evals s1).
Hypothesis Hperm : permitted init_state P.
Hypothesis HP : P = A ++ NewRec k f a :: B.
Hypothesis HX : nth_error (s_heap s0) a = Some (CMat X).
Hypothesis Hk : keeps k = false.
Hypothesis Hv : view k = true -> forall n, ~ In (Embedding r n) B.
Hypothesis Hl : In (Learn r) B.

Lemma evaluated gt mask off bl : P = A' ++ NewEval gt mask off bl :: B' ->
  snd (step s (Evaluate e r)) =
  omap (fun ds => RMetrics (judge (mat_at (s_heap s1) gt) ds))
    (judged (length X) (fun b b' => score k X (learn k X) (seq b (b' - b)))
       (match mask with None => X | Some (Csr, m) => mat_at (s_heap s) m | Some (OtherFormat, m) => mat_at (s_heap s1) m end)
       (match mask with None => 0 | Some _ => off end) bl).
Proof.
  intros HP'.
  destruct (built eq_dec learn score cold keeps view judge argsort fl psort A k f a B X) as (rc & ps & R1 & R2 & R3 & R4 & R5 & R6 & R7); [now rewrite <- HP|assumption..|].
  rewrite <- HP in *. fold s s0 r in R1, R4, R5, R6, R7.
  destruct (built_eval A' gt mask off bl B') as (ev & E1 & E2 & E3 & E4 & E5 & E6 & E7); [now rewrite <- HP'|]. rewrite <- HP' in *. fold s s1 e in E1, E5, E6, E7.
  cbn [Share_Model.step]. rewrite E1, R1.
  assert (Q := eval_loop_hot rc ps X (learn k X) (eq_trans (f_equal keeps R2) Hk) R3 ev
    (match mask with None => X | Some (Csr, m) => mat_at (s_heap s) m | Some (OtherFormat, m) => mat_at (s_heap s1) m end)
    (match mask with None => 0 | Some _ => off end) (ev_blocks ev) E2 (s_heap s) []).
  rewrite omap_app_nil in Q.
  assert (Q' : snd (evaluate score cold keeps judge (s_heap s) ev rc) = omap (judge (mat_at (s_heap s) (ev_gt ev))) (judged (length X) (fun b b' => score (rc_kind rc) X (learn k X) (seq b (b' - b)))
       (match mask with None => X | Some (Csr, m) => mat_at (s_heap s) m | Some (OtherFormat, m) => mat_at (s_heap s1) m end)
       (match mask with None => 0 | Some _ => off end) (ev_blocks ev))).
  { apply evaluate_snd; [congruence|exact E5|]. apply Q; [now repeat split|].
    destruct mask as [[fm m]|]; [|now rewrite E7]. destruct E7 as (m' & E7 & E8 & E9). rewrite E7. rewrite E9. split; [exact E8|]. split; [now destruct fm|now rewrite E3]. }
  destruct (evaluate score cold keeps judge (s_heap s) ev rc) as [h2 o]; cbn [fst snd] in *. rewrite Q', omap_omap, E6, E4, R2. reflexivity.
Qed.
Lemma evaluated_cold fi input gt mask bl : P = A' ++ NewColdEval fi input gt mask bl :: B' ->
  snd (step s (Evaluate e r)) =
  omap (fun ds => RMetrics (judge (mat_at (s_heap s1) gt) ds))
    (judged_cold (cold k X (learn k X)) (mat_at (s_heap s) input)
       (match (match mask with None => (fi, input) | Some fm => fm end) with (Csr, m) => mat_at (s_heap s) m | (OtherFormat, m) => mat_at (s_heap s1) m end) bl).
Proof.
  intros HP'.
  destruct (built eq_dec learn score cold keeps view judge argsort fl psort A k f a B X) as (rc & ps & R1 & R2 & R3 & R4 & R5 & R6 & R7); [now rewrite <- HP|assumption..|].
  rewrite <- HP in *. fold s s0 r in R1, R4, R5, R6, R7.
  destruct (built_cold_eval A' fi input gt mask bl B') as (ev & m & E1 & E2 & E3 & E4 & E5 & E6 & E7 & E8 & E9 & E10); [now rewrite <- HP'|].
  rewrite <- HP' in *. fold s s1 e in E1, E5, E6, E7, E9, E10.
  cbn [Share_Model.step]. rewrite E1, R1.
  assert (Q := eval_loop_cold rc ps X (learn k X) (eq_trans (f_equal keeps R2) Hk) R3 ev input m (mat_at (s_heap s) input) (mat_at (s_heap s) m)
                 (ev_blocks ev) E2 E8 E3 (s_heap s) []).
  rewrite omap_app_nil in Q. specialize (Q (conj R4 (conj R5 (conj R6 R7))) E7 eq_refl E9 eq_refl).
  assert (Q' := evaluate_snd rc (eq_trans (f_equal keeps R2) Hk) (s_heap s) ev _ E5 Q).
  destruct (evaluate score cold keeps judge (s_heap s) ev rc) as [h2 o]; cbn [fst snd] in *. rewrite Q', omap_omap, E6, E4, R2, E10. reflexivity.
Qed.
End Both.

(** ** What calls leave alone *)
Lemma frame (s : state I K) act : (forall k, keeps k = false) -> (forall a c, act <> Write a c) ->
  (forall m a cu al pu fo n l sc, act <> RecommendBatch m a cu al pu fo n l sc) ->
  forall a c, nth_error (s_heap s) a = Some c -> nth_error (s_heap (fst (step s act))) a = Some c.
Proof.
  intros Kf N1 N2 a c H. rewrite <- H. apply (eff_grow learn keeps view s act _ (eff s act)); [apply nth_error_Some; congruence|].
  intros [[c' ->]|[(m & cu & al & pu & fo & n & l & sc & ->)|(r & rc & _ & C & _)]]; [now apply (N1 a c')|now apply (N2 m a cu al pu fo n l sc)|congruence].
Qed.

(** ** Mappers *)
Lemma ids_step (s : state I K) act a L : (forall k, keeps k = false) -> (forall c, act <> Write a c) ->
  nth_error (s_heap s) a = Some (CIds L) -> nth_error (s_heap (fst (step s act))) a = Some (CIds L).
Proof.
  intros Kf N H. destruct act; try (apply frame; [exact Kf|discriminate|discriminate|exact H]).
  - cbn. rewrite nth_error_update_nth_other; [exact H|]. intros ->. now apply (N c).
  - cbn [Share_Model.step]. destruct (nth_error (s_maps s) m); [|exact H]. destruct (nth_error (s_heap s) a0) as [[]|] eqn:E; try exact H.
    destruct (recommended_items_batch _ _ _ _ _ _ _ _ _ _ _). cbn. rewrite nth_error_update_nth_other; [exact H|]. intros ->. congruence.
Qed.
Lemma ids_run acts : forall (s : state I K) a L, (forall k, keeps k = false) -> (forall c, ~ In (Write a c) acts) ->
  nth_error (s_heap s) a = Some (CIds L) -> nth_error (s_heap (run s acts)) a = Some (CIds L).
Proof.
  induction acts as [|act acts IH]; intros s a L Kf N H; [exact H|].
  apply (IH (fst (step s act)) a L Kf); [intros c C; apply (N c); now right|]. apply ids_step; [exact Kf| |exact H]. intros c ->. apply (N c). now left.
Qed.
Lemma maps_run acts : forall (s : state I K) m im, nth_error (s_maps s) m = Some im -> nth_error (s_maps (run s acts)) m = Some im.
Proof.
  induction acts as [|act acts IH]; intros s m im H; [exact H|]. apply (IH (fst (step s act)) m im).
  now apply (eff_maps learn keeps view s act _ (eff s act)).
Qed.

Section Mapper.
Variables (A B : list (action I K)) (a : nat) (L : list I) (mp : mapper I).
Let s0 := run init_state A.
Let s := run init_state (A ++ NewMapper a :: B).
Let m := length (s_maps s0).
Hypothesis Kf : forall k, keeps k = false.
Hypothesis HL : nth_error (s_heap s0) a = Some (CIds L).
Hypothesis HM : make_mapper eq_dec L = Ok mp.
Hypothesis HN : forall c, ~ In (Write a c) B.

Lemma mapper_same : exists im, nth_error (s_maps s) m = Some im /\ mapper_now (s_heap s) im = mp.
Proof.
  assert (E : s = run (fst (step s0 (NewMapper a))) B) by (unfold s; rewrite run_app; reflexivity).
  assert (Q : fst (step s0 (NewMapper a)) = mkState (s_heap s0) (s_recs s0) (s_evals s0) (s_maps s0 ++ [mkIdMap a (mp_index mp)]) (s_known s0)).
  { cbn [Share_Model.step]. unfold ids_at. now rewrite HL, HM. }
  exists (mkIdMap a (mp_index mp)). rewrite E, Q. split.
  - apply maps_run. cbn. unfold m. now rewrite nth_error_app2, Nat.sub_diag by lia.
  - unfold mapper_now. cbn [im_ids im_index]. unfold ids_at. rewrite (ids_run B _ a L Kf HN) by exact HL.
    unfold make_mapper in HM. destruct (length L =? length (enumerate_dict eq_dec L)); [|discriminate]. injection HM as <-. reflexivity.
Qed.
Lemma recommend_same b row cutoff al fo :
  snd (step s (Recommend m b row cutoff al fo)) =
  omap RItems (recommended_items eq_dec argsort mp (nth row (d_rows (arr_at (s_heap s) b)) []) cutoff al fo).
Proof. destruct mapper_same as (im & H1 & H2). cbn [Share_Model.step]. now rewrite H1, H2. Qed.
Lemma batch_same b d cutoff al pu fo n l sc : nth_error (s_heap s) b = Some (CArr d) ->
  let q := step s (RecommendBatch m b cutoff al pu fo n l sc) in
  snd q = omap RLists (snd (recommended_items_batch eq_dec fl psort mp d cutoff al pu fo n l sc)) /\
  (forall b', b' <> b -> nth_error (s_heap (fst q)) b' = nth_error (s_heap s) b') /\
  exists d', nth_error (s_heap (fst q)) b = Some (CArr d') /\ d_cols d' = d_cols d /\ length (d_rows d') = length (d_rows d) /\
    forall u i x, nth_error L i = Some x ->
      nth i (nth u (d_rows d') []) NegInf = nth i (nth u (d_rows d) []) NegInf \/
      (nth i (nth u (d_rows d') []) NegInf = NegInf /\ exists f, fo = Some f /\ In x (nth u f [])).
Proof.
  intros Hd. destruct mapper_same as (im & H1 & H2). cbn [Share_Model.step]. rewrite H1, Hd, H2.
  destruct (recommended_items_batch eq_dec fl psort mp d cutoff al pu fo n l sc) as [rows o] eqn:E. cbn [fst snd s_heap set_heap].
  split; [reflexivity|]. split; [intros b' N; now rewrite nth_error_update_nth_other|].
  exists (mkDense (d_cols d) rows). split; [now rewrite (nth_error_update_nth_same _ _ _ _ Hd)|]. split; [reflexivity|]. cbn [d_rows].
  unfold recommended_items_batch in E.
  destruct (negb _); [injection E as <- <-; split; [reflexivity|now left]|].
  destruct (match fo with Some _ => _ | None => _ end); [injection E as <- <-; split; [reflexivity|now left]|].
  destruct (match pu with Some _ => _ | None => _ end); [injection E as <- <-; split; [reflexivity|now left]|].
  injection E as <- _. destruct fo as [f|]; [|split; [reflexivity|now left]].
  split; [now rewrite map_length, seq_length|]. intros u i x Hx.
  destruct (Nat.lt_ge_cases u (length (d_rows d))) as [C|C].
  2:{ left. rewrite (nth_overflow (map _ _) []) by (rewrite map_length, seq_length; exact C). now rewrite (nth_overflow (d_rows d) []) by exact C. }
  rewrite (nth_indep _ _ (set_neginf (nth 0 (d_rows d) []) (index_list eq_dec mp (nth 0 f [])))) by (now rewrite map_length, seq_length).
  rewrite (map_nth (fun u => set_neginf (nth u (d_rows d) []) (index_list eq_dec mp (nth u f [])))), seq_nth by exact C. cbn [plus].
  rewrite EvalPy_Proofs.set_neginf_nth. destruct (relevant (index_list eq_dec mp (nth u f [])) i) eqn:R; [|now left]. right. split; [reflexivity|].
  exists f. split; [reflexivity|].
  unfold relevant in R. destruct (in_dec Nat.eq_dec i (index_list eq_dec mp (nth u f []))) as [Hj|]; [|discriminate]. clear R.
  rewrite (index_list_spec eq_dec L mp HM) in Hj. apply in_map_iff in Hj as (y & Hy & Hin). apply filter_In in Hin as [Hin Hy'].
  destruct (in_dec eq_dec y L) as [Hyi|]; [|discriminate].
  destruct (ipos_nth eq_dec L y x Hyi) as [_ H3]. rewrite Hy in H3. rewrite (nth_error_nth L i x Hx) in H3. now subst y.
Qed.
End Mapper.
End Api.
