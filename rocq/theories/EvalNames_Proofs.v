(** Proofs about the dictionaries of an evaluator. *)
From Coq Require Import String.
From Coq Require Import List.
From Verif Require Import Base PyStr_Model PyStr_Proofs Tune_Proofs History_Model History_Proofs.
From Coq Require Import QArith.
From Verif Require Import Eval_Model Sort_Proofs EvalPy_Model EvalPy_Spec Eval_Facts_Proofs Eval_Core_Proofs Eval_Derived_Proofs EvalPy_Proofs EvalApi_Proofs EvalProps_Proofs EvalNames_Model EvalNames_Spec.
Local Open Scope nat_scope.

Lemma mget_mset_same d k v : mget (mset d k v) k = Some v.
Proof.
  induction d as [|[k' v'] d IH]; cbn [mset mget].
  - destruct (pystr_eqb_spec k k); congruence.
  - destruct (pystr_eqb_spec k' k) as [->|N]; cbn [mget].
    + destruct (pystr_eqb_spec k k); congruence.
    + destruct (pystr_eqb_spec k' k); [congruence|exact IH].
Qed.
Lemma mget_mset_other d k v k' : k <> k' -> mget (mset d k v) k' = mget d k'.
Proof.
  intros N. induction d as [|[k0 v0] d IH]; cbn [mset mget].
  - destruct (pystr_eqb_spec k k'); congruence.
  - destruct (pystr_eqb_spec k0 k) as [->|N0]; cbn [mget].
    + destruct (pystr_eqb_spec k k'); [congruence|reflexivity].
    + destruct (pystr_eqb_spec k0 k'); [reflexivity|exact IH].
Qed.
Lemma keys_mset d k v : forall x, In x (map fst (mset d k v)) <-> x = k \/ In x (map fst d).
Proof.
  intros x. induction d as [|[k0 v0] d IH]; cbn [mset map fst In].
  - intuition.
  - destruct (pystr_eqb_spec k0 k) as [->|N0]; cbn [map fst In]; [intuition|]. rewrite IH. intuition.
Qed.
Lemma nodup_mset d k v : NoDup (map fst d) -> NoDup (map fst (mset d k v)).
Proof.
  induction d as [|[k0 v0] d IH]; cbn [mset map fst]; intros H.
  - repeat constructor. intros [].
  - inversion H as [|? ? H1 H2]; subst. destruct (pystr_eqb_spec k0 k) as [->|N0]; cbn [map fst]; constructor; auto.
    rewrite keys_mset. intros [E|E]; auto.
Qed.

Definition lab (c : nat) (m : pystr) : pystr := score_label (N.of_nat c) m.
Lemma at_cutoff_lab name c : at_cutoff name c = lab c (str name).
Proof. reflexivity. Qed.
Definition plain (names : list pystr) : Prop := forall m, In m names -> ~ In 64%Z m.
Lemma names_plain : plain metric_names.
Proof.
  assert (H : forallb (fun m => forallb (fun x => negb (Z.eqb x 64)) m) metric_names = true) by reflexivity.
  intros m Hm I. rewrite forallb_forall in H. specialize (H m Hm). rewrite forallb_forall in H. specialize (H _ I). discriminate.
Qed.
Lemma lab_inj c c' m m' : ~ In 64%Z m -> ~ In 64%Z m' -> lab c m = lab c' m' -> c = c' /\ m = m'.
Proof. intros H H' E. apply label_inj in E as [E ->]; auto. split; auto. lia. Qed.

(** ** One cutoff *)
Lemma name_loop_ok c s names : (forall m, In m names -> mget s m <> None) -> forall d, exists d', name_loop c s names d = Ok d'.
Proof.
  induction names as [|m names IH]; intros H d; cbn [name_loop]; [eauto|].
  destruct (mget s m) as [v|] eqn:E; [|exfalso; apply (H m); [now left|exact E]]. apply IH. intros m' I. apply H. now right.
Qed.
Lemma name_loop_other c s names k : (forall m, In m names -> lab c m <> k) -> forall d d', name_loop c s names d = Ok d' -> mget d' k = mget d k.
Proof.
  induction names as [|m names IH]; intros H d d'; cbn [name_loop]; [now intros [= ->]|].
  destruct (mget s m) as [v|]; [|discriminate]. intros E. apply IH in E; [|intros m' I; apply H; now right].
  rewrite E. apply mget_mset_other. apply (H m). now left.
Qed.
Lemma name_loop_get c s names : plain names -> forall d d', name_loop c s names d = Ok d' -> forall m, In m names -> mget d' (lab c m) = mget s m.
Proof.
  induction names as [|m0 names IH]; intros P d d'; cbn [name_loop]; [intros _ m []|].
  destruct (mget s m0) as [v|] eqn:E0; [|discriminate]. intros E m I.
  assert (P' : plain names) by (intros x Ix; apply P; now right).
  destruct (in_dec pystr_dec m names) as [J|J]; [now apply (IH P' _ _ E)|].
  destruct I as [<-|I]; [|contradiction].
  rewrite (name_loop_other _ _ _ (lab c m0)) with (2 := E).
  - rewrite E0. apply mget_mset_same.
  - intros m' I' F. apply lab_inj in F as [_ ->]; [contradiction| |]; apply P; [now right|now left].
Qed.
Lemma name_loop_keys c s names : forall d d', name_loop c s names d = Ok d' ->
  forall k, In k (map fst d') <-> In k (map fst d) \/ exists m, In m names /\ k = lab c m.
Proof.
  induction names as [|m names IH]; intros d d'; cbn [name_loop].
  - intros [= ->] k. split; [auto|intros [H|(m & [] & _)]; exact H].
  - destruct (mget s m) as [v|]; [|discriminate]. intros E k. rewrite (IH _ _ E k), keys_mset. fold (lab c m). split.
    + intros [[->|H]|(m' & I & ->)]; [right; exists m; cbn; auto|auto|right; exists m'; cbn; auto].
    + intros [H|(m' & [<-|I] & ->)]; [auto|auto|right; eauto].
Qed.
Lemma name_loop_nodup c s names : forall d d', name_loop c s names d = Ok d' -> NoDup (map fst d) -> NoDup (map fst d').
Proof.
  induction names as [|m names IH]; intros d d'; cbn [name_loop]; [now intros [= ->]|].
  destruct (mget s m); [|discriminate]. intros E H. apply (IH _ _ E). now apply nodup_mset.
Qed.

(** ** All cutoffs *)
Definition complete (s : mdict) : Prop := forall m, In m metric_names -> mget s m <> None.
Lemma cutoff_loop_ok l : (forall c s, In (c, s) l -> complete s) -> forall d, exists d', cutoff_loop l d = Ok d'.
Proof.
  induction l as [|[c s] l IH]; intros H d; cbn [cutoff_loop]; [eauto|].
  destruct (name_loop_ok c s metric_names) with (d := d) as [d1 E]; [apply (H c s); now left|]. rewrite E. cbn [obind].
  apply IH. intros c' s' I. apply (H c' s'). now right.
Qed.
Lemma cutoff_loop_keys l : forall d d', cutoff_loop l d = Ok d' ->
  forall k, In k (map fst d') <-> In k (map fst d) \/ exists m c, In m metric_names /\ In c (map fst l) /\ k = lab c m.
Proof.
  induction l as [|[c s] l IH]; intros d d'; cbn [cutoff_loop].
  - intros [= ->] k. split; [auto|]. intros [H|(m & c & _ & [] & _)]; exact H.
  - destruct (name_loop c s metric_names d) as [d1| | |] eqn:E1; cbn [obind]; try discriminate. intros E k.
    rewrite (IH _ _ E k), (name_loop_keys _ _ _ _ _ E1 k). cbn [map fst In]. split.
    + intros [[H|(m & I & ->)]|(m & c' & I & J & ->)]; [auto|right; exists m, c; auto|right; exists m, c'; auto].
    + intros [H|(m & c' & I & [<-|J] & ->)]; [auto|left; right; eauto|right; eauto].
Qed.
Lemma cutoff_loop_nodup l : forall d d', cutoff_loop l d = Ok d' -> NoDup (map fst d) -> NoDup (map fst d').
Proof.
  induction l as [|[c s] l IH]; intros d d'; cbn [cutoff_loop]; [now intros [= ->]|].
  destruct (name_loop c s metric_names d) as [d1| | |] eqn:E1; cbn [obind]; try discriminate. intros E H.
  apply (IH _ _ E). eapply name_loop_nodup; eauto.
Qed.
Lemma cutoff_loop_other l m c : In m metric_names -> ~ In c (map fst l) -> forall d d', cutoff_loop l d = Ok d' -> mget d' (lab c m) = mget d (lab c m).
Proof.
  intros Hm. induction l as [|[c0 s] l IH]; intros H d d'; cbn [cutoff_loop]; [now intros [= ->]|].
  destruct (name_loop c0 s metric_names d) as [d1| | |] eqn:E1; cbn [obind]; try discriminate. intros E.
  rewrite (IH (fun I => H (or_intror I)) _ _ E). eapply name_loop_other; [|exact E1].
  intros m' I F. apply lab_inj in F as [-> _]; [|now apply names_plain..]. apply H. now left.
Qed.
(** The last report for a cutoff is the one that shows. *)
Lemma cutoff_loop_get l c : In c (map fst l) -> forall d d', cutoff_loop l d = Ok d' ->
  exists s, In (c, s) l /\ forall m, In m metric_names -> mget d' (lab c m) = mget s m.
Proof.
  induction l as [|[c0 s0] l IH]; intros I d d'; cbn [cutoff_loop]; [destruct I|].
  destruct (name_loop c0 s0 metric_names d) as [d1| | |] eqn:E1; cbn [obind]; try discriminate. intros E.
  destruct (in_dec Nat.eq_dec c (map fst l)) as [J|J].
  - destruct (IH J _ _ E) as (s & Is & Hs). exists s. split; [now right|exact Hs].
  - destruct I as [<-|I]; [|contradiction]. exists s0. split; [now left|]. intros m Hm.
    cbn [fst] in *; rewrite (cutoff_loop_other _ m c0 Hm J _ _ E). eapply name_loop_get; [exact names_plain|exact E1|exact Hm].
Qed.

Lemma score_dict_complete r : complete (score_dict r).
Proof.
  destruct r as [m cov]. intros k Hk. cbn [metric_names map In] in Hk.
  repeat (destruct Hk as [<-|Hk]; [vm_compute; discriminate|]). destruct Hk.
Qed.
Lemma score_dict_same r r' : same_result r r' -> forall m, In m metric_names -> exists v v',
  mget (score_dict r) m = Some v /\ mget (score_dict r') m = Some v' /\ same_value v v'.
Proof.
  destruct r as [a ca], r' as [b cb]. intros [H C] m Hm. cbn [fst snd] in H, C. destruct H.
  cbn [metric_names map In] in Hm.
  destruct Hm as [<-|[<-|[<-|[<-|[<-|[<-|[<-|[<-|[<-|[]]]]]]]]]]; eexists; eexists; (split; [reflexivity|]); (split; [reflexivity|]); cbn [same_value]; auto.
  - unfold q_of_nat. rewrite sr_appeared. reflexivity.
  - destruct ca, cb; cbn [same_coverage same_value] in *; auto.
Qed.

Section Disc.
Variable disc : nat -> Q.
Lemma entry_evaluated g us run cutoffs rs : entry_point disc g us run -> cutoffs_ok (g_n_items g) cutoffs -> run cutoffs = Ok rs ->
  evaluated disc g us cutoffs rs.
Proof. intros H Hc E. destruct H; [eapply by_matrix|eapply by_chunks|eapply by_model]; eauto. Qed.

Lemma means_unique g us run cutoffs rs c r r' : entry_point disc g us run -> cutoffs_ok (g_n_items g) cutoffs -> run cutoffs = Ok rs ->
  In (c, r) (combine cutoffs rs) -> evaluation_means disc (g_rwc g) (g_n_items g) (g_recs g) us c r' -> same_result r r'.
Proof.
  intros He Hc E I M'. pose proof (entry_evaluated _ _ _ _ _ He Hc E) as Hev.
  destruct (evaluated_means _ _ _ _ _ Hev) as (M & HU & _).
  assert (M1 : evaluation_means disc (g_rwc g) (g_n_items g) (g_recs g) us c r).
  { clear -M I. induction M as [|c0 r0 cs rs M0 M IH]; [destruct I|]. destruct I as [[= -> ->]|I]; auto. }
  assert (F : Forall2 same_result [r] [r']).
  { eapply evaluations_unique with (cutoffs := [c]); [eapply users_ok_elig; exact HU|constructor; [exact M1|constructor]|constructor; [exact M'|constructor]]. }
  now inversion F.
Qed.
Lemma combine_map_in (A B C : Type) (f : B -> C) (l : list A) (l' : list B) a y :
  In (a, y) (combine l (map f l')) -> exists b, y = f b /\ In (a, b) (combine l l').
Proof.
  revert l'. induction l as [|x l IH]; intros [|b l'] I; cbn in I; try contradiction.
  destruct I as [[= -> <-]|I]; [exists b; cbn; auto|]. destruct (IH _ I) as (b' & -> & I'). exists b'. cbn. auto.
Qed.
Lemma fst_combine (A B : Type) (l : list A) (l' : list B) : length l = length l' -> map fst (combine l l') = l.
Proof. revert l'. induction l as [|x l IH]; intros [|b l'] H; cbn in *; try lia; auto. f_equal. apply IH. lia. Qed.

Lemma scores_answer g us run cutoffs rs : entry_point disc g us run -> run cutoffs = Ok rs -> exists D, get_scores run cutoffs = Ok D.
Proof.
  intros He E. unfold get_scores. rewrite E. cbn [obind]. apply cutoff_loop_ok. intros c s I.
  apply combine_map_in in I as (b & -> & _). apply score_dict_complete.
Qed.
Lemma run_length g us run cutoffs rs : entry_point disc g us run -> cutoffs_ok (g_n_items g) cutoffs -> run cutoffs = Ok rs -> length cutoffs = length rs.
Proof.
  intros He Hc E. pose proof (entry_evaluated _ _ _ _ _ He Hc E) as Hev.
  destruct (evaluated_means _ _ _ _ _ Hev) as (M & _ & _). clear -M. induction M; cbn; auto.
Qed.
Lemma scores_inv g us run cutoffs D : entry_point disc g us run -> cutoffs_ok (g_n_items g) cutoffs -> get_scores run cutoffs = Ok D ->
  exists rs, run cutoffs = Ok rs /\ map fst (combine cutoffs (map score_dict rs)) = cutoffs /\
    cutoff_loop (combine cutoffs (map score_dict rs)) [] = Ok D.
Proof.
  intros He Hc. unfold get_scores. destruct (run cutoffs) as [rs| | |] eqn:E; cbn [obind]; try discriminate. intros H.
  exists rs. split; [reflexivity|]. split; [|exact H]. apply fst_combine. rewrite map_length. eapply run_length; eauto.
Qed.
Lemma scores_keys g us run cutoffs D : entry_point disc g us run -> cutoffs_ok (g_n_items g) cutoffs -> get_scores run cutoffs = Ok D ->
  NoDup (map fst D) /\ forall k, In k (map fst D) <-> exists m c, In m metric_names /\ In c cutoffs /\ k = m ++ str "@" ++ show (N.of_nat c).
Proof.
  intros He Hc E. destruct (scores_inv _ _ _ _ _ He Hc E) as (rs & _ & F & L). split.
  - eapply cutoff_loop_nodup; [exact L|constructor].
  - intros k. rewrite (cutoff_loop_keys _ _ _ L k). rewrite F. cbn [map In]. split.
    + intros [[]|(m & c & H)]. exists m, c. exact H.
    + intros (m & c & H). right. exists m, c. exact H.
Qed.
Lemma scores_entry g us run cutoffs D c : entry_point disc g us run -> cutoffs_ok (g_n_items g) cutoffs -> get_scores run cutoffs = Ok D -> In c cutoffs ->
  exists rs r, run cutoffs = Ok rs /\ In (c, r) (combine cutoffs rs) /\ forall m, In m metric_names -> mget D (lab c m) = mget (score_dict r) m.
Proof.
  intros He Hc E Ic. destruct (scores_inv _ _ _ _ _ He Hc E) as (rs & R & F & L).
  rewrite <- F in Ic. destruct (cutoff_loop_get _ _ Ic _ _ L) as (s & Is & Hs).
  apply combine_map_in in Is as (r & -> & Ir). exists rs, r. auto.
Qed.
Lemma means_in g us run cutoffs rs c r : entry_point disc g us run -> cutoffs_ok (g_n_items g) cutoffs -> run cutoffs = Ok rs ->
  In (c, r) (combine cutoffs rs) -> evaluation_means disc (g_rwc g) (g_n_items g) (g_recs g) us c r.
Proof.
  intros He Hc E I. destruct (evaluated_means _ _ _ _ _ (entry_evaluated _ _ _ _ _ He Hc E)) as (M & _).
  clear -M I. induction M as [|c0 r0 cs rs M0 M IH]; [destruct I|]. destruct I as [[= -> ->]|I]; auto.
Qed.
Lemma scores_meaning g us run cutoffs D c : entry_point disc g us run -> cutoffs_ok (g_n_items g) cutoffs -> get_scores run cutoffs = Ok D -> In c cutoffs ->
  exists r, evaluation_means disc (g_rwc g) (g_n_items g) (g_recs g) us c r /\ shows D c r.
Proof.
  intros He Hc E Ic. destruct (scores_entry _ _ _ _ _ _ He Hc E Ic) as (rs & r & R & I & H).
  exists r. split; [eapply means_in; eauto|]. destruct r as [m cov].
  constructor; rewrite at_cutoff_lab, H by (cbn; tauto); reflexivity.
Qed.
Lemma score_inv g us run c D : entry_point disc g us run -> cutoffs_ok (g_n_items g) [c] -> get_score run c = Ok D ->
  exists r, run [c] = Ok [r] /\ D = score_dict r.
Proof.
  intros He Hc. unfold get_score. destruct (run [c]) as [rs| | |] eqn:E; cbn [obind]; try discriminate.
  pose proof (run_length _ _ _ _ _ He Hc E) as L. destruct rs as [|r [|? ?]]; cbn in L; try lia. intros [= <-]. eauto.
Qed.
Lemma scores_lookup g us run run' cutoffs D c D' m : entry_point disc g us run -> entry_point disc g us run' ->
  cutoffs_ok (g_n_items g) cutoffs -> get_scores run cutoffs = Ok D -> get_score run' c = Ok D' ->
  In c cutoffs -> In m metric_names -> same_entry D (m ++ str "@" ++ show (N.of_nat c)) D' m.
Proof.
  intros He He' Hc E E' Ic Hm. assert (Hc' : cutoffs_ok (g_n_items g) [c]).
  { constructor; [|constructor]. unfold cutoffs_ok in Hc. rewrite Forall_forall in Hc. auto. }
  destruct (scores_entry _ _ _ _ _ _ He Hc E Ic) as (rs & r & R & I & H).
  destruct (score_inv _ _ _ _ _ He' Hc' E') as (r' & R' & ->).
  assert (S : same_result r r').
  { apply (means_unique g us run cutoffs rs c); auto. apply (means_in g us run' [c] [r']); auto. now left. }
  destruct (score_dict_same _ _ S m Hm) as (v & v' & V & V' & Sv). exists v, v'. split; [|auto].
  change (mget D (lab c m) = Some v). rewrite H by exact Hm. exact V.
Qed.
Lemma target_in t : In (target_name t) metric_names.
Proof. destruct t; cbn; tauto. Qed.
Lemma score_target g us run c D t : entry_point disc g us run -> cutoffs_ok (g_n_items g) [c] -> get_score run c = Ok D ->
  exists v, get_target_score run t c = Ok v /\ mget D (target_name t) = Some v.
Proof.
  intros He Hc E. unfold get_target_score. rewrite E. cbn [obind]. destruct (score_inv _ _ _ _ _ He Hc E) as (r & _ & ->).
  pose proof (score_dict_complete r _ (target_in t)) as H. destruct (mget (score_dict r) (target_name t)) as [v|]; [eauto|congruence].
Qed.
Lemma scores_target g us run run' cutoffs D c v t : entry_point disc g us run -> entry_point disc g us run' ->
  cutoffs_ok (g_n_items g) cutoffs -> get_scores run cutoffs = Ok D -> In c cutoffs -> get_target_score run' t c = Ok v ->
  exists v', mget D (target_metric_name t c) = Some v' /\ same_value v' v.
Proof.
  intros He He' Hc E Ic T. unfold get_target_score in T.
  destruct (get_score run' c) as [D'| | |] eqn:E'; cbn [obind] in T; try discriminate.
  destruct (scores_lookup _ _ _ _ _ _ _ _ _ He He' Hc E E' Ic (target_in t)) as (v1 & v2 & V1 & V2 & S).
  rewrite V2 in T. injection T as <-. exists v1. split; [exact V1|exact S].
Qed.
Lemma score_keys g us run c D : entry_point disc g us run -> cutoffs_ok (g_n_items g) [c] -> get_score run c = Ok D ->
  map fst D = map str ["total_user"; "valid_user"; "n_items"; "hit"; "ndcg"; "recall"; "map"; "precision"; "appeared_item"; "entropy"; "gini_index"; "catalog_coverage"]%string.
Proof. intros He Hc E. destruct (score_inv _ _ _ _ _ He Hc E) as ([m cov] & _ & ->). reflexivity. Qed.
End Disc.

Lemma target_names_cover name : (exists t, target_of name = Ok t) <-> In name (map str ["ndcg"; "recall"; "hit"; "map"; "precision"]%string).
Proof.
  unfold target_of. split.
  - intros (t & H). destruct (find _ _) as [t'|] eqn:F; [|discriminate]. apply find_some in F as [_ F].
    destruct (pystr_eqb_spec (target_name t') name) as [<-|]; [|discriminate]. destruct t'; cbn; tauto.
  - intros H. cbn [map In] in H. destruct H as [<-|[<-|[<-|[<-|[<-|[]]]]]]; eexists; vm_compute; reflexivity.
Qed.
Lemma target_of_name name t : target_of name = Ok t <-> name = target_name t.
Proof.
  unfold target_of. split.
  - destruct (find _ _) as [t'|] eqn:F; [|discriminate]. intros [= <-]. apply find_some in F as [_ F].
    destruct (pystr_eqb_spec (target_name t') name) as [<-|]; [reflexivity|discriminate].
  - intros ->. destruct t; vm_compute; reflexivity.
Qed.
Lemma target_unknown name : (forall t, name <> target_name t) -> target_of name = Fail KeyError.
Proof.
  intros H. unfold target_of. destruct (find _ _) as [t'|] eqn:F; [|reflexivity]. apply find_some in F as [_ F].
  destruct (pystr_eqb_spec (target_name t') name) as [<-|]; [exfalso; now apply (H t')|discriminate].
Qed.

(** ** Pickling *)
Lemma ltb_negtrans : forall x y z : nat, (x <? y) = false -> (y <? z) = false -> (x <? z) = false.
Proof. intros x y z H H'. apply Nat.ltb_ge in H, H'. apply Nat.ltb_ge. lia. Qed.
Lemma ltb_asym : forall x y : nat, (x <? y) = true -> (y <? x) = false.
Proof. intros x y H. apply Nat.ltb_lt in H. apply Nat.ltb_ge. lia. Qed.
Lemma sort_twice l : sort_by Nat.ltb (sort_by Nat.ltb l) = sort_by Nat.ltb l.
Proof.
  apply (sorted_unique Nat.ltb).
  - intros x y _ _ H H'. apply Nat.ltb_ge in H, H'. lia.
  - apply sort_by_perm.
  - apply sort_by_sorted; [exact ltb_asym|exact ltb_negtrans].
  - apply sort_by_sorted; [exact ltb_asym|exact ltb_negtrans].
Qed.
Lemma core_reload rows n recs c : make_core rows n recs = Ok c -> setstate (getstate c) = Ok c.
Proof.
  intros H. apply make_core_iff in H as [-> HR]. unfold setstate, getstate. cbn [c_rows c_n_items c_recs].
  apply make_core_iff. split.
  - f_equal. rewrite map_map. apply map_ext. intros l. symmetry. apply sort_twice.
  - destruct HR as [H1 H2]. split; [now rewrite map_length|]. rewrite Forall_forall in *. intros l Hl.
    apply in_map_iff in Hl as (l0 & <- & Hl0). destruct (H2 l0 Hl0) as [N F]. split.
    + now apply sort_by_nodup.
    + rewrite Forall_forall in *. intros i Hi. apply F. eapply sort_by_in, Hi.
Qed.
Lemma evaluator_reload g ev : build g = Ok ev -> reload ev = Ok ev.
Proof.
  intros H. unfold build, make_evaluator in H.
  destruct (recommendable_arg _ _ _) as [arg| | |]; cbn [obind] in H; try discriminate.
  destruct (make_core (g_gt g) (g_n_items g) arg) as [c| | |] eqn:E; cbn [obind] in H; try discriminate.
  assert (K : e_core ev = c).
  { destruct (g_masked g) as [m|]; [destruct (_ && _)|]; try discriminate; injection H as <-; reflexivity. }
  unfold reload. rewrite K, (core_reload _ _ _ _ E). cbn [omap obind]. rewrite <- K. destruct ev; reflexivity.
Qed.
