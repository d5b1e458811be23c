(** Saving, loading and pickling of iALS trainers. *)
From Verif Require Import Base Sched_Model.
From mathcomp Require Import all_ssreflect all_algebra.
Import Order.TTheory GRing.Theory Num.Theory.
From Verif Require Import Sched_Proofs.
From Verif Require Import Ials_Model Ials_Spec IalsRow_Proofs IalsPool_Proofs IalsGram_Proofs IalsStep_Proofs IalsEpoch_Proofs IalsTop_Proofs.
From Verif Require Import IalsState_Model IalsState_Spec.
Set Implicit Arguments.
Unset Strict Implicit.
Unset Printing Implicit Defensive.
Local Open Scope ring_scope.

Section Save.
Variable F : realFieldType.
Variable pow : F -> F -> F.
Variable cfg : model_config F.
Variables (m n K fu fi : nat).
Notation trainer := (trainer F m n K fu fi).
Implicit Types (t : trainer) (d : train_data F m n fu fi).

Lemma answers_model t t' : model_of t = model_of t' -> same_answers pow cfg t t'.
Proof.
case: t t' => u i wu wi cu ci e [u' i' wu' wi' cu' ci' e'] [-> -> -> ->]; split=> //.
Qed.
Lemma load_model t0 t : model_of (load_state (save_state t0) t) = model_of t0.
Proof. by []. Qed.

(** ** Histories *)
Lemma runs_file d (s s' : trainer * files F m n K fu fi) ops k : runs pow cfg d s ops s' -> ~~ has (saves k) ops -> s'.2 k = s.2 k.
Proof.
elim=> [//|sc es t t' fs {}ops {}s' _ _ IH|sc es t t' fs {}ops {}s' e _ _ _ IH|k' t fs {}ops {}s' _ IH
       |k' t fs p {}ops {}s' _ _ IH|k' t fs {}ops {}s' _ _ IH] //=.
rewrite negb_or => /andP [hk /IH ->] /=; rewrite /write eq_sym.
by move: hk; rewrite /saves => /negbTE ->.
Qed.
Lemma runs_nil_inv d (s s' : trainer * files F m n K fu fi) : runs pow cfg d s [::] s' -> s' = s.
Proof. by move=> h; inversion h. Qed.
Lemma runs_save_inv d (s s' : trainer * files F m n K fu fi) k ops : runs pow cfg d s (Save k :: ops) s' ->
  runs pow cfg d (s.1, write s.2 k (save_state s.1)) ops s'.
Proof. by move=> h; inversion h. Qed.
Lemma runs_load_inv d (s s' : trainer * files F m n K fu fi) k ops p : s.2 k = Some p ->
  runs pow cfg d s (Load k :: ops) s' -> runs pow cfg d (load_state p s.1, s.2) ops s'.
Proof.
move=> E h; inversion h as [| | | |k0 t0 fs0 p0 ops0 s0 E0 h0|k0 t0 fs0 ops0 s0 E0 h0]; subst; rewrite /= E0 in E => //.
by case: E => <-.
Qed.
Theorem restore d t0 fs ops t1 fs1 k t2 fs2 :
  ~~ has (saves k) ops -> runs pow cfg d (t0, fs) (Save k :: ops) (t1, fs1) ->
  runs pow cfg d (t1, fs1) [:: Load k] (t2, fs2) -> model_of t2 = model_of t0 /\ same_answers pow cfg t2 t0.
Proof.
move=> hk /runs_save_inv h1 h2.
suff e : model_of t2 = model_of t0 by split=> //; apply: answers_model.
have hf : fs1 k = Some (save_state t0).
  by have /= -> := runs_file h1 hk; rewrite /write eqxx.
by have [-> _] := runs_nil_inv (runs_load_inv (s := (t1, fs1)) hf h2).
Qed.

(** ** Going on with the training *)
Definition right d t : Prop :=
  right_cache pow cfg (d_user_features d) (lambda_user_feature cfg) (d_X d) (t_user_cache t) /\
  right_cache pow cfg (d_item_features d) (lambda_item_feature cfg) (transpose (d_X d)) (t_item_cache t).

Lemma update_right m' n' f (feat : 'M[F]_(m', f)) T lambda (X : sparse F m' n') nt s (W : 'M[F]_(f, K)) c :
  right_cache pow cfg feat lambda X c ->
  update_feature_weight pow cfg feat T lambda X nt s W c =
  if f == 0%N then Ok (W, c) else update_feature_weight pow cfg feat T lambda X nt s W None.
Proof.
rewrite /update_feature_weight; case: ifP => // hf.
by case: c => [c|] //= ->.
Qed.
Lemma update_keeps m' n' f (feat : 'M[F]_(m', f)) T lambda (X : sparse F m' n') nt s (W : 'M[F]_(f, K)) c W' c' :
  right_cache pow cfg feat lambda X c ->
  update_feature_weight pow cfg feat T lambda X nt s W c = Ok (W', c') -> right_cache pow cfg feat lambda X c'.
Proof.
move=> hc; rewrite update_right //; case: ifP => [_ [_ <-] //|hf].
rewrite /update_feature_weight hf => h; case: (obind_ok h) => c0 h0 {}h; case: (omap_ok h) => W0 _ [_ ->].
exact: h0.
Qed.
Definition fst2 (A B C : Type) (x : A * (B * C)) := (x.1, x.2.1).
Lemma half_right m' n' f sc wf sp ss sw (X : sparse F m' n') (feat : 'M[F]_(m', f)) lambda (V : 'M[F]_(n', K)) T W c c' :
  right_cache pow cfg feat lambda X c -> right_cache pow cfg feat lambda X c' ->
  Base.omap (@fst2 _ _ _) (half_step pow cfg sc wf sp ss sw X feat lambda V T W c) =
  Base.omap (@fst2 _ _ _) (half_step pow cfg sc wf sp ss sw X feat lambda V T W c').
Proof.
move=> hc hc'; rewrite /half_step; case: prepare_p => //= P; case: ifP => hf.
  case: solver_step_with_prior => //= T'; rewrite (update_right _ _ _ _ hc) (update_right _ _ _ _ hc').
  by case/andP: hf => _ /negbTE ->.
by case: solver_step.
Qed.
Lemma half_keeps m' n' f sc wf sp ss sw (X : sparse F m' n') (feat : 'M[F]_(m', f)) lambda (V : 'M[F]_(n', K)) T W c r :
  right_cache pow cfg feat lambda X c ->
  half_step pow cfg sc wf sp ss sw X feat lambda V T W c = Ok r -> right_cache pow cfg feat lambda X r.2.2.
Proof.
move=> hc; rewrite /half_step => h; case: (obind_ok h) => P _ {h}; case: ifP => hf h.
  case: (obind_ok h) => T' _ {}h; case: (omap_ok h) => -[W' c'] E -> /=; exact: update_keeps hc E.
by case: (omap_ok h) => T' _ ->.
Qed.

Lemma step_right d sc es t t' : right d t -> trainer_step pow cfg sc es d t = Ok t' ->
  right d t' /\ t_epoch t' = (t_epoch t).+1.
Proof.
move=> [h1 h2] E; have [ru [ri [E1 E2 ->]]] := step_cases E.
by split=> //; split; [exact: half_keeps h1 E1|exact: half_keeps h2 E2].
Qed.
Lemma runs_right d (s s' : trainer * files F m n K fu fi) ops : runs pow cfg d s ops s' -> right d s.1 -> right d s'.1.
Proof.
elim=> [//|sc es t t' fs {}ops {}s' E _ IH|sc es t t' fs {}ops {}s' e _ [hu hi _] _ IH|k' t fs {}ops {}s' _ IH
       |k' t fs p {}ops {}s' _ _ IH|k' t fs {}ops {}s' _ _ IH] //= hr.
- by apply: IH; apply: (step_right hr E).1.
- apply: IH; case: hr => h1 h2; split=> /=.
    by case: hu => [->|[c [-> hc]]].
  by case: hi => [->|[c [-> hc]]].
Qed.

Definition similar d t t' : Prop :=
  [/\ model_of t = model_of t', right d t, right d t', past_warmup cfg d t & past_warmup cfg d t'].

Lemma step_similar d sc es t t' : similar d t t' ->
  Base.omap (@model_of F m n K fu fi) (trainer_step pow cfg sc es d t) =
  Base.omap (@model_of F m n K fu fi) (trainer_step pow cfg sc es d t') /\
  forall u u', trainer_step pow cfg sc es d t = Ok u -> trainer_step pow cfg sc es d t' = Ok u' -> similar d u u'.
Proof.
move=> [hm hr hr' hw hw'].
have eqm : Base.omap (@model_of F m n K fu fi) (trainer_step pow cfg sc es d t) =
           Base.omap (@model_of F m n K fu fi) (trainer_step pow cfg sc es d t').
  case: hr hr' => h1 h2 [h1' h2']; case: hm => hu hi hwu hwi.
  rewrite /trainer_step; case: ifP => // _.
  have -> : d_feature_aware d && (feature_warmup_epochs cfg <= t_epoch t)%N =
            d_feature_aware d && (feature_warmup_epochs cfg <= t_epoch t')%N.
    by move: hw hw'; rewrite /past_warmup; case: (d_feature_aware d) => //= -> // ->.
  rewrite hu hi hwu hwi; set wf := _ && _.
  have := half_right sc wf (s_prepare_user es) (s_step_user es) (s_weight_user es) (t_item t') (t_user t') (t_user_weight t') h1 h1'.
  set a := half_step _ _ _ _ _ _ _ _ _ _ _ _ _ _; set a' := half_step _ _ _ _ _ _ _ _ _ _ _ _ _ _.
  case: a a' => [ru|e||] [ru'|e'||] //=; last by move=> [->].
  move=> [e1 e2]; rewrite e1 e2.
  have := half_right sc wf (s_prepare_item es) (s_step_item es) (s_weight_item es) ru'.1 (t_item t') (t_item_weight t') h2 h2'.
  set b := half_step _ _ _ _ _ _ _ _ _ _ _ _ _ _; set b' := half_step _ _ _ _ _ _ _ _ _ _ _ _ _ _.
  case: b b' => [ri|e||] [ri'|e'||] //=; last by move=> [->].
  by move=> [e3 e4]; rewrite /model_of /= e3 e4.
split=> // u u' E E'; rewrite E E' /= in eqm.
have [g1 g2] := step_right hr E; have [g1' g2'] := step_right hr' E'.
split=> //; first by case: eqm => *; congr (_, _, (_, _)).
  by move=> ha; rewrite g2; apply: leqW; apply: hw.
by move=> ha; rewrite g2'; apply: leqW; apply: hw'.
Qed.

Lemma epochs_similar d l t t' : similar d t t' ->
  Base.omap (@model_of F m n K fu fi) (epochs pow cfg d l t) = Base.omap (@model_of F m n K fu fi) (epochs pow cfg d l t').
Proof.
elim: l t t' => [|se l IH] t t' h /=; first by case: h => /= ->.
have [e hs] := step_similar se.1 se.2 h.
move: e hs; case: trainer_step => [u|e||]; case: trainer_step => [u'|e'||] //=.
by move=> _ /(_ _ _ (erefl _) (erefl _)) /IH.
Qed.

Lemma new_right d user0 item0 t : new_trainer cfg d user0 item0 = Ok t -> right d t.
Proof. by rewrite /new_trainer; case: ifP => // _ [<-]. Qed.
Lemma reachable_right d t : reachable pow cfg d t -> right d t.
Proof.
elim=> [u0 i0 {}t /new_right //|sc es t1 t2 _ IH E]; exact: (step_right IH E).1.
Qed.

Theorem resume d t0 user0 item0 tn fs ops t fs' l :
  reachable pow cfg d t0 -> past_warmup cfg d t0 ->
  new_trainer cfg d user0 item0 = Ok tn -> runs pow cfg d (tn, fs) ops (t, fs') -> past_warmup cfg d t ->
  Base.omap (@model_of F m n K fu fi) (epochs pow cfg d l (load_state (save_state t0) t)) =
  Base.omap (@model_of F m n K fu fi) (epochs pow cfg d l t0).
Proof.
move=> h0 w0 hn hr w; apply: epochs_similar.
have [c1 c2] := runs_right hr (new_right hn).
by split=> //; apply: reachable_right.
Qed.

(** ** Pickling *)
Lemma unpickle_ok hc s1 s2 t t' : unpickle cfg hc s1 s2 (save_state t) = Ok t' ->
  model_of t' = model_of t /\ same_answers pow cfg t' t.
Proof.
rewrite /unpickle => h; case: (obind_ok h) => P1 _ {}h; case: (obind_ok h) => P2 _ [<-].
by split=> //; apply: answers_model.
Qed.
Lemma unpickle_cases hc s1 s2 t :
  (hc = 0%N -> unpickle cfg hc s1 s2 (save_state t) = Fail InvalidArgument) /\
  ((0 < hc)%N -> fair n hc s1 -> fair m hc s2 -> exists t', unpickle cfg hc s1 s2 (save_state t) = Ok t').
Proof.
split=> [->//|h f1 f2]; rewrite /unpickle.
have [_ [_ /(_ h f1) [P ->]]] := top_gram_cases cfg hc s1 (p_item (save_state t)).
have [_ [_ /(_ h f2) [P' ->]]] := top_gram_cases cfg hc s2 (p_user (save_state t)).
by eexists.
Qed.
End Save.

Section Ub.
Variables (R : Type) (m : nat) (f : 'I_m -> R -> outcome R).
Lemma step_table_all_ub nt sched (t : {ffun 'I_m -> R}) : (0 < nt)%N -> (0 < m)%N ->
  fair m nt sched -> (forall i, f i (t i) = UB) -> step_table f nt sched t = UB.
Proof.
move=> h hm hf ht; have := step_table_result f sched t h.
case: (step_table _ _ _ _) => [t'|e'||] //=.
- by move=> [_ /(_ (Ordinal hm))]; rewrite ht.
- by move=> [_ [i]]; rewrite ht.
- case=> [|[i]]; last by rewrite ht.
  have hb : Peano.le 1 1 by exact: Peano.le_n.
  by rewrite (fair_completes _ _ _ _ hb _ _ _ _ (fair_sched hf)).
Qed.
End Ub.
