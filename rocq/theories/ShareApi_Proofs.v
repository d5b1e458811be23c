(** Programs over shared objects: what stays as it was. *)
From Verif Require Import Base Sched_Model Sched_Proofs Eval_Model EvalPy_Model Rec_Model Share_Model Share_Spec Share_Proofs.
Local Open Scope nat_scope.

Section Api.
Context {I K M : Type}.
Variable eq_dec : forall a b : I, {a = b} + {a <> b}.
Variable learn : K -> list srow -> list dense.
Variable score : K -> list srow -> list dense -> list nat -> dense.
Variable cold : K -> list srow -> list dense -> list srow -> dense.
Variable keeps : K -> bool.
Variable view : K -> bool.
Variable judge : list srow -> list dense -> M.
Variable argsort : list Eval_Model.score -> list nat.
Variable fl : Eval_Model.score -> Eval_Model.score.
Variable psort : nat -> list (nat * Eval_Model.score) -> list (nat * Eval_Model.score).
Notation step := (step eq_dec learn score cold keeps view judge argsort fl psort).
Notation run := (run eq_dec learn score cold keeps view judge argsort fl psort).
Notation next := (fun s act => fst (step s act)).
Notation permitted := (permitted next).
Notation effect := (effect learn keeps view).
Notation kept_arrays := (kept_arrays keeps).
Notation allowed s act := (Forall (fun a => In a (s_known s)) (uses act)).

Lemma run_app (s : state I K) l l' : run s (l ++ l') = run (run s l) l'.
Proof. unfold Share_Model.run. now rewrite fold_left_app. Qed.
Lemma permitted_app (s : state I K) l l' : permitted s (l ++ l') <-> permitted s l /\ permitted (run s l) l'.
Proof.
  revert s; induction l as [|x l IH]; intros s; cbn; [tauto|]. rewrite IH. unfold Share_Model.run; cbn. tauto.
Qed.
Lemma eff (s : state I K) act : effect s act (fst (step s act)).
Proof. apply step_effect. Qed.

(** ** The owners are kept *)
Lemma inv_ext own own' (s : state I K) act (s' : state I K) : inv own s -> effect s act s' ->
  (forall a, a < length (s_heap s) -> own' a = own a) ->
  (forall a, In a (s_known s') -> length (s_heap s) <= a -> own' a = OCaller) ->
  (forall r rc, nth_error (s_recs s') r = Some rc -> nth_error (s_recs s) r = Some rc \/
     ((rc_X rc < length (s_heap s') /\ own' (rc_X rc) = OTrain r) /\
      forall ps p, rc_par rc = Some ps -> In p ps -> p < length (s_heap s') /\ own' p = OLearnt r)) ->
  (forall e ev, nth_error (s_evals s') e = Some ev -> nth_error (s_evals s) e = Some ev \/
     ((ev_gt ev < length (s_heap s') /\ own' (ev_gt ev) = OEval e) /\
      (forall m, ev_mask ev = Some m -> m < length (s_heap s') /\ (own' m = OEval e \/ In m (s_known s'))) /\
      (forall i, ev_input ev = Some i -> In i (s_known s')))) ->
  (forall m im, nth_error (s_maps s') m = Some im -> nth_error (s_maps s) m = Some im \/ In (im_ids im) (s_known s')) ->
  inv own' s'.
Proof.
  intros [K1 R1 E1 M1] [[L _] EK EM _ _ _] Ag Fr NR NE NM. constructor.
  - intros a Ha. destruct (EK a Ha) as [H|[H|H]].
    + destruct (K1 a H) as [H1 H2]. split; [lia|]. now rewrite Ag.
    + split; [lia|]. left. apply Fr; [exact Ha|lia].
    + destruct H as (r & rc & Hr & H). destruct (R1 r rc Hr) as [_ R2].
      assert (P : exists ps, rc_par rc = Some ps /\ In a ps) by (destruct H as [[_ H]|(_ & _ & H)]; exact H).
      destruct P as (ps & P1 & P2). destruct (R2 ps a P1 P2) as [H1 H2]. split; [lia|]. right. exists r. now rewrite Ag.
  - intros r rc Hr. destruct (NR r rc Hr) as [H|H]; [|exact H]. destruct (R1 r rc H) as [[H1 H2] H3].
    split; [split; [lia|now rewrite Ag]|]. intros ps p P1 P2. destruct (H3 ps p P1 P2) as [H4 H5]. split; [lia|now rewrite Ag].
  - intros e ev He. destruct (NE e ev He) as [H|H]; [|exact H]. destruct (E1 e ev H) as ([H1 H2] & H3 & H4).
    split; [split; [lia|now rewrite Ag]|]. split; [|intros i Hi; apply EM, H4, Hi].
    intros m Hm. destruct (H3 m Hm) as [H5 H6]. split; [lia|]. rewrite Ag by exact H5. destruct H6 as [H6|H6]; [now left|right; now apply EM].
  - intros m im Hm. destruct (NM m im Hm) as [H|H]; [|exact H]. apply EM, (M1 m im H).
Qed.

Definition extend (n : nat) (own fresh : nat -> owner) (a : nat) : owner := if a <? n then own a else fresh a.
Lemma extend_old n own fresh a : a < n -> extend n own fresh a = own a.
Proof. intros H. unfold extend. now destruct (Nat.ltb_spec a n); [|lia]. Qed.
Lemma extend_new n own fresh a : n <= a -> extend n own fresh a = fresh a.
Proof. intros H. unfold extend. now destruct (Nat.ltb_spec a n); [lia|]. Qed.

(** Steps that create no object of the library and no learnt arrays. *)
Lemma inv_simple own (s : state I K) act : inv own s -> s_recs (fst (step s act)) = s_recs s -> s_evals (fst (step s act)) = s_evals s ->
  (s_maps (fst (step s act)) = s_maps s \/ exists a, In a (s_known s) /\ s_known (fst (step s act)) = s_known s /\ exists d, s_maps (fst (step s act)) = s_maps s ++ [mkIdMap a d]) ->
  exists own', (forall a, a < length (s_heap s) -> own' a = own a) /\ inv own' (fst (step s act)).
Proof.
  intros H E1 E2 E3. exists (extend (length (s_heap s)) own (fun _ => OCaller)). split; [intros; now apply extend_old|].
  eapply inv_ext; [exact H|apply eff|intros; now apply extend_old|intros; now apply extend_new|..].
  - intros r rc. rewrite E1. now left.
  - intros e ev. rewrite E2. now left.
  - intros m im. destruct E3 as [E3|(a & Ha & Hk & d & E3)]; rewrite E3; [now left|].
    intros Hm. destruct (Nat.lt_ge_cases m (length (s_maps s))) as [C|C]; [left; now rewrite nth_error_app1 in Hm|].
    rewrite nth_error_app2 in Hm by exact C. destruct (m - length (s_maps s)) as [|n]; cbn in Hm; [|now destruct n].
    injection Hm as <-. right. cbn. rewrite Hk. exact Ha.
Qed.
Lemma learn_more_same (s : state I K) q : let s' := fst (learn_more (M := M) s q) in s_recs s' = s_recs s /\ s_evals s' = s_evals s /\ s_maps (I := I) (K := K) s' = s_maps s.
Proof. destruct q as [h []]; cbn; auto. Qed.

Lemma nth_error_snoc {X} (l : list X) x n y : nth_error (l ++ [x]) n = Some y -> nth_error l n = Some y \/ (n = length l /\ y = x).
Proof.
  intros H. destruct (Nat.lt_ge_cases n (length l)) as [C|C]; [left; now rewrite nth_error_app1 in H|right].
  rewrite nth_error_app2 in H by exact C. destruct (n - length l) as [|k] eqn:E; cbn in H; [|now destruct k].
  injection H as ->. split; [lia|reflexivity].
Qed.

Lemma inv_step own (s : state I K) act : inv own s -> allowed s act ->
  exists own', (forall a, a < length (s_heap s) -> own' a = own a) /\ inv own' (fst (step s act)).
Proof.
  intros H A. assert (Ef := eff s act).
  destruct act;
    try (apply inv_simple; [exact H|..]; cbn [Share_Model.step];
         first [ now left | reflexivity
               | destruct (nth_error (s_recs s) r); [apply learn_more_same|reflexivity]
               | left; destruct (nth_error (s_recs s) r); [apply learn_more_same|reflexivity]
               | idtac ]; fail).
  - (* NewRec *)
    cbn [Share_Model.step] in *. destruct (make_rec_grow (s_heap s) k f a) as (G & P1 & P2 & P3 & _).
    destruct (make_rec (s_heap s) k f a) as [h1 rc]; cbn [fst snd] in *.
    exists (extend (length (s_heap s)) own (fun x => if x =? rc_X rc then OTrain (length (s_recs s)) else OTemp)).
    split; [intros; now apply extend_old|]. eapply inv_ext; [exact H|exact Ef|intros; now apply extend_old|..]; cbn.
    + intros b Hb Lb. destruct (inv_known own s H b Hb). lia.
    + intros r rc' Hr. apply nth_error_snoc in Hr. destruct Hr as [Hr|[-> ->]]; [now left|right]. rewrite P2.
      split; [|discriminate]. split; [lia|]. rewrite extend_new by lia. now rewrite Nat.eqb_refl.
    + now left.
    + now left.
  - (* Learn *)
    cbn [Share_Model.step] in *. destruct (nth_error (s_recs s) r) as [rc|] eqn:E; [|exists own; split; [auto|exact H]].
    destruct (do_learn_grow learn (s_heap s) rc) as (G & ps & P1 & P2 & P3).
    destruct (do_learn learn (s_heap s) rc) as [h1 rc'] eqn:D. cbn [fst snd] in *. subst rc'.
    exists (extend (length (s_heap s)) own (fun _ => OLearnt r)). split; [intros; now apply extend_old|].
    eapply inv_ext; [exact H|exact Ef|intros; now apply extend_old|..]; cbn.
    + intros b Hb Lb. destruct (inv_known own s H b Hb). lia.
    + intros r' rc' Hr. destruct (Nat.eq_dec r' r) as [->|N]; [|rewrite nth_error_update_nth_other in Hr by exact N; now left].
      rewrite (nth_error_update_nth_same _ _ _ _ E) in Hr. injection Hr as <-. right. cbn.
      destruct (inv_rec own s H r rc E) as [[H1 H2] _]. destruct G as [G _].
      split; [split; [lia|now rewrite extend_old]|]. intros ps' p Hp Hi. injection Hp as <-. specialize (P2 p Hi). split; [lia|].
      now rewrite extend_new by lia.
    + now left.
    + now left.
  - (* NewEval *)
    cbn [Share_Model.step] in *. destruct (make_eval_grow (s_heap s) gt mask offset blocks) as (G & P1 & _ & P3 & _ & _ & P6).
    destruct (make_eval (s_heap s) gt mask offset blocks) as [h1 e]; cbn [fst snd] in *.
    exists (extend (length (s_heap s)) own (fun x => OEval (length (s_evals s)))). split; [intros; now apply extend_old|].
    eapply inv_ext; [exact H|exact Ef|intros; now apply extend_old|..]; cbn.
    + intros b Hb Lb. destruct (inv_known own s H b Hb). lia.
    + now left.
    + intros e' ev He. apply nth_error_snoc in He. destruct He as [He|[-> ->]]; [now left|right].
      split; [split; [lia|now rewrite extend_new by lia]|]. split; [|now rewrite P3].
      intros m Hm. destruct mask as [[[] m0]|].
      * assert (m = m0) by congruence. subst m0. cbn in A. inversion A as [|? ? _ A']; subst. inversion A'; subst.
        destruct (inv_known own s H m) as [L _]; [assumption|]. destruct G as [G _]. split; [lia|now right].
      * destruct P6 as (m' & P6 & P7 & _). assert (m = m') by congruence. subst m'. split; [lia|left; now rewrite extend_new by lia].
      * congruence.
    + now left.
  - (* NewColdEval *)
    cbn [Share_Model.step] in *. destruct (make_cold_eval_grow (s_heap s) fi input gt mask blocks) as (G & P1 & _ & P3 & _ & _ & P6).
    destruct (make_cold_eval (s_heap s) fi input gt mask blocks) as [h1 e]; cbn [fst snd] in *.
    exists (extend (length (s_heap s)) own (fun x => OEval (length (s_evals s)))). split; [intros; now apply extend_old|].
    assert (Ai : In input (s_known s)) by (cbn in A; now inversion A).
    assert (Am : forall f m, mask = Some (f, m) -> In m (s_known s)).
    { intros f m ->. cbn in A. inversion A as [|? ? _ A']; subst. inversion A' as [|? ? _ A'']; subst. now inversion A''. }
    eapply inv_ext; [exact H|exact Ef|intros; now apply extend_old|..]; cbn.
    + intros b Hb Lb. destruct (inv_known own s H b Hb). lia.
    + now left.
    + intros e' ev He. apply nth_error_snoc in He. destruct He as [He|[-> ->]]; [now left|right].
      split; [split; [lia|now rewrite extend_new by lia]|]. split; [|intros i Hi; congruence].
      intros m Hm. destruct (match mask with None => (fi, input) | Some fm => fm end) as [f0 m0] eqn:F0.
      assert (Im : In m0 (s_known s)). { destruct mask as [[f m1]|]; injection F0 as <- <-; [now apply (Am f)|exact Ai]. }
      destruct f0.
      * assert (m = m0) by congruence. subst m0. destruct (inv_known own s H m Im) as [L _]. destruct G as [G _]. split; [lia|now right].
      * destruct P6 as (m' & P6 & P7 & _). assert (m = m') by congruence. subst m'. split; [lia|left; now rewrite extend_new by lia].
    + now left.
  - (* Evaluate *)
    apply inv_simple; [exact H|..]; cbn [Share_Model.step]; try left;
      (destruct (nth_error (s_evals s) e) as [ev|]; [|reflexivity]); (destruct (nth_error (s_recs s) r) as [rc|]; [|reflexivity]);
      destruct (evaluate _ _ _ _ _ _ _); reflexivity.
  - (* NewMapper *)
    apply inv_simple; [exact H|..]; cbn [Share_Model.step].
    + now destruct (make_mapper eq_dec (ids_at (s_heap s) a)).
    + now destruct (make_mapper eq_dec (ids_at (s_heap s) a)).
    + destruct (make_mapper eq_dec (ids_at (s_heap s) a)) as [mp| | |]; [right|now left..].
      exists a. split; [now inversion A|]. split; [reflexivity|]. now exists (mp_index mp).
  - (* Recommend *)
    apply inv_simple; [exact H|..]; cbn [Share_Model.step]; [| |left]; now destruct (nth_error (s_maps s) m).
  - (* RecommendBatch *)
    apply inv_simple; [exact H|..]; cbn [Share_Model.step]; [| |left];
      (destruct (nth_error (s_maps s) m); [|reflexivity]); (destruct (nth_error (s_heap s) a) as [[]|]; try reflexivity);
      destruct (recommended_items_batch _ _ _ _ _ _ _ _ _ _ _); reflexivity.
Qed.

Lemma inv_init : inv (fun _ => OTemp) (init_state (I := I) (K := K)).
Proof using Type. clear eq_dec learn score cold keeps view judge argsort fl psort. constructor; cbn; try tauto; intros []; discriminate. Qed.
Lemma inv_run acts : forall own (s : state I K), inv own s -> permitted s acts -> exists own', inv own' (run s acts).
Proof.
  induction acts as [|act acts IH]; intros own s H P; [now exists own|]. destruct P as [A P].
  destruct (inv_step own s act H A) as (own' & _ & H'). exact (IH own' _ H' P).
Qed.

(** ** A recommender that is left alone *)
Definition target (s : state I K) (r : nat) (k : K) (X : list srow) : Prop :=
  exists rc, nth_error (s_recs s) r = Some rc /\ rc_kind rc = k /\ nth_error (s_heap s) (rc_X rc) = Some (CMat X) /\
    forall ps, rc_par rc = Some ps ->
      map (nth_error (s_heap s)) ps = map (fun d => Some (CArr d)) (learn k X) /\ forall p, In p ps -> ~ In p (s_known s).

Lemma learn_known (s : state I K) r : s_known (fst (step s (Learn r))) = s_known s.
Proof. cbn [Share_Model.step]. destruct (nth_error (s_recs s) r) as [rc|]; [|reflexivity]. now destruct (do_learn learn (s_heap s) rc). Qed.

(** A cell that belongs to a recommender or evaluator is not written. *)
Lemma owned_kept own (s : state I K) act a : inv own s -> allowed s act -> a < length (s_heap s) ->
  (exists r, own a = OTrain r) \/ (exists e, own a = OEval e) ->
  nth_error (s_heap (fst (step s act))) a = nth_error (s_heap s) a.
Proof.
  intros H A L O. apply (eff_grow learn keeps view s act _ (eff s act)); [exact L|]. intros [[c ->]|[(m & cu & al & pu & fo & n & l & sc & ->)|(r' & rc' & Hr & _ & ps & P1 & P2)]].
  - cbn in A. inversion A; subst. destruct (inv_known own s H a) as [_ [C|[r C]]]; [assumption|..]; destruct O as [[? O]|[? O]]; congruence.
  - cbn in A. inversion A; subst. destruct (inv_known own s H a) as [_ [C|[r C]]]; [assumption|..]; destruct O as [[? O]|[? O]]; congruence.
  - destruct (inv_rec own s H r' rc' Hr) as [_ R]. destruct (R ps a P1 P2) as [_ C]. destruct O as [[? O]|[? O]]; congruence.
Qed.

Lemma map_ext_in_eq {X Y} (f g : X -> Y) l z : map f l = z -> (forall x, In x l -> g x = f x) -> map g l = z.
Proof. intros <- E. now apply map_ext_in. Qed.

Lemma target_step own (s : state I K) act r k X : inv own s -> allowed s act -> keeps k = false ->
  (view k = true -> forall n, act <> Embedding r n) -> target s r k X -> target (fst (step s act)) r k X.
Proof.
  intros H A Kf Nv (rc & Hr & Hk & HX & Hp). assert (Ef := eff s act).
  destruct (inv_rec own s H r rc Hr) as [[LX OX] LP].
  assert (HX' : nth_error (s_heap (fst (step s act))) (rc_X rc) = Some (CMat X)).
  { rewrite (owned_kept own s act (rc_X rc) H A LX) by (left; now exists r). exact HX. }
  assert (R := eff_recs learn keeps view s act _ Ef r rc Hr).
  destruct (match act with Learn r' => r' =? r | _ => false end) eqn:EL.
  - destruct act as [| | |r0| | | | | | | | | | |]; try discriminate. apply Nat.eqb_eq in EL. subst r0.
    destruct R as (ps & R1 & R2 & R3). eexists. split; [exact R1|]. split; [exact Hk|]. split; [exact HX'|].
    intros ps' E. injection E as <-. unfold mat_at in R3. rewrite HX, Hk in R3. split; [exact R3|].
    intros p Pp Kp. rewrite learn_known in Kp. destruct (inv_known own s H p Kp) as [C _]. specialize (R2 p Pp). lia.
  - exists rc. split; [exact R|]. split; [exact Hk|]. split; [exact HX'|]. intros ps Hps. destruct (Hp ps Hps) as [C1 C2].
    split.
    + apply (map_ext_in_eq _ _ _ _ C1). intros p Pp. destruct (LP ps p Hps Pp) as [Lp Op].
      apply (eff_grow learn keeps view s act _ Ef); [exact Lp|]. intros [[c ->]|[(m & cu & al & pu & fo & n & l & sc & ->)|(r' & rc' & Hr' & K' & ps' & P1 & P2)]].
      * cbn in A. inversion A; subst. now apply (C2 p Pp).
      * cbn in A. inversion A; subst. now apply (C2 p Pp).
      * destruct (inv_rec own s H r' rc' Hr') as [_ R']. destruct (R' ps' p P1 P2) as [_ C]. assert (r' = r) by congruence. subst r'. congruence.
    + intros p Pp Kp. destruct (LP ps p Hps Pp) as [Lp Op]. destruct (eff_known learn keeps view s act _ Ef p Kp) as [C|[C|(r' & rc' & Hr' & C)]]; [now apply (C2 p Pp)|lia|].
      assert (P : exists ps', rc_par rc' = Some ps' /\ In p ps') by (destruct C as [[_ C]|(_ & _ & C)]; exact C).
      destruct P as (ps' & P1 & P2). destruct (inv_rec own s H r' rc' Hr') as [_ R']. destruct (R' ps' p P1 P2) as [_ O'].
      assert (r' = r) by congruence. subst r'. assert (rc' = rc) by congruence. subst rc'.
      destruct C as [[C _]|((n & C) & V & _)]; [congruence|]. rewrite Hk in V. now apply (Nv V n).
Qed.
Lemma target_run acts : forall own (s : state I K) r k X, inv own s -> permitted s acts -> keeps k = false ->
  (view k = true -> forall n, ~ In (Embedding r n) acts) -> target s r k X -> target (run s acts) r k X.
Proof.
  induction acts as [|act acts IH]; intros own s r k X H P Kf Nv T; [exact T|]. destruct P as [A P].
  destruct (inv_step own s act H A) as (own' & _ & H').
  apply (IH own' (fst (step s act)) r k X H' P Kf); [intros V n C; now apply (Nv V n); right|].
  apply (target_step own); auto. intros V n ->. apply (Nv V n). now left.
Qed.

(** Learning has happened. *)
Definition learnt (s : state I K) (r : nat) : Prop := exists rc ps, nth_error (s_recs s) r = Some rc /\ rc_par rc = Some ps.
Lemma learnt_step (s : state I K) act r : learnt s r -> learnt (fst (step s act)) r.
Proof.
  intros (rc & ps & Hr & Hp). assert (R := eff_recs learn keeps view s act _ (eff s act) r rc Hr).
  destruct (match act with Learn r' => r' =? r | _ => false end).
  - destruct R as (ps' & R & _). eexists _, ps'. split; [exact R|reflexivity].
  - now exists rc, ps.
Qed.
Lemma learnt_run acts : forall (s : state I K) r rc, nth_error (s_recs s) r = Some rc -> learnt s r \/ In (Learn r) acts -> learnt (run s acts) r.
Proof.
  induction acts as [|act acts IH]; intros s r rc Hr L; [now destruct L|].
  assert (R := eff_recs learn keeps view s act _ (eff s act) r rc Hr).
  destruct (match act with Learn r' => r' =? r | _ => false end) eqn:E.
  - destruct R as (ps & R & _). refine (IH _ r _ R _). left. eexists _, ps. split; [exact R|reflexivity].
  - apply (IH (fst (step s act)) r rc R). destruct L as [L|[->|L]]; [left; now apply learnt_step|rewrite Nat.eqb_refl in E; discriminate|now right].
Qed.

(** The recommender after a program that builds and trains it. *)
Lemma built A k f a B X :
  let s0 := run init_state A in
  permitted init_state (A ++ NewRec k f a :: B) ->
  nth_error (s_heap s0) a = Some (CMat X) -> keeps k = false ->
  (view k = true -> forall n, ~ In (Embedding (length (s_recs s0)) n) B) -> In (Learn (length (s_recs s0))) B ->
  let s := run init_state (A ++ NewRec k f a :: B) in
  exists rc ps, nth_error (s_recs s) (length (s_recs s0)) = Some rc /\ rc_kind rc = k /\ rc_par rc = Some ps /\
    mat_at (s_heap s) (rc_X rc) = X /\ rc_X rc < length (s_heap s) /\ (forall p, In p ps -> p < length (s_heap s)) /\ map (arr_at (s_heap s)) ps = learn k X.
Proof.
  intros s0 P HX Kf Nv L s. apply permitted_app in P. destruct P as [PA P]. fold s0 in P. destruct P as [Au PB].
  destruct (inv_run A _ _ inv_init PA) as [own H0]. fold s0 in H0.
  destruct (inv_step own s0 (NewRec k f a) H0 Au) as (own1 & _ & H1).
  assert (T : target (fst (step s0 (NewRec k f a))) (length (s_recs s0)) k X /\
              exists rc, nth_error (s_recs (fst (step s0 (NewRec k f a)))) (length (s_recs s0)) = Some rc).
  { cbn [Share_Model.step]. destruct (make_rec_grow (s_heap s0) k f a) as (_ & P1 & P2 & _ & P4).
    destruct (make_rec (s_heap s0) k f a) as [h1 rc]; cbn [fst snd] in *. split.
    - exists rc. cbn. split; [now rewrite nth_error_app2, Nat.sub_diag by lia|]. split; [exact P1|]. split; [|congruence].
      rewrite P4 by (apply nth_error_Some; congruence). unfold mat_at. now rewrite HX.
    - exists rc. cbn. now rewrite nth_error_app2, Nat.sub_diag by lia. }
  destruct T as [T [rc0 Hrc0]].
  assert (E : s = run (fst (step s0 (NewRec k f a))) B) by (unfold s; rewrite run_app; reflexivity).
  destruct (target_run B own1 _ _ _ _ H1 PB Kf Nv T) as (rc & R1 & R2 & R3 & R4). rewrite <- E in *.
  destruct (learnt_run B _ _ rc0 Hrc0 (or_intror L)) as (rc' & ps & L1 & L2). rewrite <- E in L1.
  assert (rc' = rc) by congruence. subst rc'. exists rc, ps. destruct (R4 ps L2) as [R5 _].
  repeat (split; [assumption|]). split; [unfold mat_at; now rewrite R3|]. split; [apply nth_error_Some; congruence|].
  assert (Q : forall p, In p ps -> exists d, nth_error (s_heap s) p = Some (CArr d)).
  { intros p Pp. assert (Ip : In (nth_error (s_heap s) p) (map (nth_error (s_heap s)) ps)) by (now apply in_map).
    rewrite R5 in Ip. apply in_map_iff in Ip. destruct Ip as (d & Hd & _). now exists d. }
  split; [intros p Pp; destruct (Q p Pp) as [d Hd]; apply nth_error_Some; congruence|].
  assert (R6 : map (fun o => match o with Some (CArr d) => d | _ => mkDense 0 [] end) (map (nth_error (s_heap s)) ps) = learn k X).
  { rewrite R5, map_map. apply map_id. }
  rewrite map_map in R6. exact R6.
Qed.

Lemma get_score_new (h : heap I) (rc : recommender K) us ps : keeps (rc_kind rc) = false -> rc_par rc = Some ps -> (forall u, In u us -> u < length (mat_at h (rc_X rc))) ->
  get_score score keeps h rc us = (h ++ [CArr (score (rc_kind rc) (mat_at h (rc_X rc)) (map (arr_at h) ps) us)], Ok (length (h : heap I))).
Proof.
  intros Kf P U. unfold get_score. rewrite P, Kf.
  replace (forallb _ us) with true; [reflexivity|]. symmetry. apply forallb_forall. intros u Hu. now apply Nat.ltb_lt, U.
Qed.
Lemma get_score_cold_new (h : heap I) (rc : recommender K) x ps : keeps (rc_kind rc) = false -> rc_par rc = Some ps ->
  get_score_cold cold keeps h rc x = (h ++ [CArr (cold (rc_kind rc) (mat_at h (rc_X rc)) (map (arr_at h) ps) x)], Ok (length (h : heap I))).
Proof. intros Kf P. unfold get_score_cold. now rewrite P, Kf. Qed.
Lemma assign_new (h : heap I) d mask : assign (h ++ [CArr d]) (length h) mask =
  match apply_mask d (map nonzero_row mask) with
  | Ok d' => (h ++ [CArr d'], Ok tt) | Fail e => (h ++ [CArr d], Fail e) | UB => (h ++ [CArr d], UB) | Pending => (h ++ [CArr d], Pending)
  end.
Proof.
  unfold assign. replace (arr_at (h ++ [CArr d]) (length h)) with d by (unfold arr_at; now rewrite alloc_last).
  destruct (apply_mask d _); try reflexivity. f_equal. clear. induction h as [|c h IH]; [reflexivity|]. cbn. now rewrite IH.
Qed.
Lemma mat_at_app (h : heap I) c a : a < length h -> mat_at (h ++ [c]) a = mat_at h a.
Proof. intros H. apply mat_at_eq. now apply nth_error_app1. Qed.

Section Built.
Variables (A B : list (action I K)) (k : K) (f : format) (a : nat) (X : list srow).
Let s0 := run init_state A.
Let s := run init_state (A ++ NewRec k f a :: B).
Let r := length (s_recs s0).
Hypothesis Hp : permitted init_state (A ++ NewRec k f a :: B).
Hypothesis HX : nth_error (s_heap s0) a = Some (CMat X).
Hypothesis Hk : keeps k = false.
Hypothesis Hv : view k = true -> forall n, ~ In (Embedding r n) B.
Hypothesis Hl : In (Learn r) B.

Lemma scores_fixed us : (forall u, In u us -> u < length X) ->
  let q := step s (Score r us) in returned (snd q) (s_heap (fst q)) = Ok (score k X (learn k X) us).
Proof.
  intros U. destruct (built A k f a B X Hp HX Hk Hv Hl) as (rc & ps & R1 & R2 & R3 & R4 & R5 & R6 & R7).
  cbn [Share_Model.step]. unfold s, r, s0. rewrite R1, (get_score_new _ _ _ ps) by (congruence || now rewrite R4). cbn.
  rewrite alloc_last. now rewrite R2, R4, R7.
Qed.
Lemma scores_seen us : (forall u, In u us -> u < length X) ->
  let q := step s (ScoreRemoveSeen r us) in
  returned (snd q) (s_heap (fst q)) = apply_mask (score k X (learn k X) us) (map (fun u => nonzero_row (nth u X [])) us).
Proof.
  intros U. destruct (built A k f a B X Hp HX Hk Hv Hl) as (rc & ps & R1 & R2 & R3 & R4 & R5 & R6 & R7).
  cbn [Share_Model.step]. unfold s, r, s0. rewrite R1. unfold get_score_remove_seen. rewrite (get_score_new _ _ _ ps) by (congruence || now rewrite R4).
  rewrite assign_new, mat_at_app by exact R5. rewrite R2, R4, R7, map_map.
  destruct (apply_mask _ _) eqn:E; cbn; try reflexivity. now rewrite alloc_last.
Qed.
Lemma scores_cold b : let q := step s (ScoreCold r b) in
  returned (snd q) (s_heap (fst q)) = Ok (cold k X (learn k X) (mat_at (s_heap s) b)).
Proof.
  destruct (built A k f a B X Hp HX Hk Hv Hl) as (rc & ps & R1 & R2 & R3 & R4 & R5 & R6 & R7).
  cbn [Share_Model.step]. unfold s, r, s0. rewrite R1, (get_score_cold_new _ _ _ ps) by congruence. cbn.
  rewrite alloc_last. now rewrite R2, R4, R7.
Qed.
Lemma scores_cold_seen b : let q := step s (ScoreColdRemoveSeen r b) in
  returned (snd q) (s_heap (fst q)) = apply_mask (cold k X (learn k X) (mat_at (s_heap s) b)) (map nonzero_row (mat_at (s_heap s) b)).
Proof.
  destruct (built A k f a B X Hp HX Hk Hv Hl) as (rc & ps & R1 & R2 & R3 & R4 & R5 & R6 & R7).
  cbn [Share_Model.step]. unfold s, r, s0. rewrite R1. unfold get_score_cold_remove_seen. rewrite (get_score_cold_new _ _ _ ps) by congruence.
  rewrite assign_new. rewrite R2, R4, R7. destruct (apply_mask _ _) eqn:E; cbn; try reflexivity. now rewrite alloc_last.
Qed.
End Built.
End Api.
