(** Lemmas about ID mappers and recommendation lists. *)
From Verif Require Import Base Sched_Model Sched_Proofs Table_Proofs Sort_Proofs Eval_Model Eval_Proofs EvalPy_Model Rec_Spec.
Local Open Scope nat_scope.

Section Ids.
Context {I : Type}.
Variable eq_dec : forall a b : I, {a = b} + {a <> b}.

(** ** The mapper *)
Lemma dict_set_keys (d : list (I * nat)) k v : map fst (dict_set eq_dec d k v) = if in_dec eq_dec k (map fst d) then map fst d else map fst d ++ [k].
Proof.
  induction d as [|[k' v'] d IH]; [reflexivity|]. cbn [dict_set]. destruct (eq_dec k k') as [->|Hn]; cbn [map fst].
  - destruct (in_dec eq_dec k' (k' :: map fst d)) as [|H]; auto. exfalso. apply H. now left.
  - rewrite IH. destruct (in_dec eq_dec k (map fst d)) as [H|H], (in_dec eq_dec k (k' :: map fst d)) as [H'|H']; auto.
    + exfalso. apply H'. now right.
    + exfalso. destruct H' as [->|H']; auto.
Qed.
Lemma dict_find_set (d : list (I * nat)) k v x : dict_find eq_dec (dict_set eq_dec d k v) x = if eq_dec x k then Some v else dict_find eq_dec d x.
Proof.
  induction d as [|[k' v'] d IH]; cbn.
  - destruct (eq_dec x k); auto.
  - destruct (eq_dec k k') as [->|Hn]; cbn.
    + destruct (eq_dec x k'); auto.
    + rewrite IH. destruct (eq_dec x k') as [->|]; auto. destruct (eq_dec k' k); congruence.
Qed.
Definition enum_loop (s : nat) (ids : list I) (d : list (I * nat)) :=
  fold_left (fun d p => dict_set eq_dec d (snd p) (fst p)) (combine (seq s (length ids)) ids) d.
Lemma enum_loop_keys ids : forall s d, NoDup (map fst d) ->
  NoDup (map fst (enum_loop s ids d)) /\ (forall x, In x (map fst (enum_loop s ids d)) <-> In x (map fst d) \/ In x ids).
Proof.
  unfold enum_loop. induction ids as [|y ids IH]; intros s d Hd; cbn [length seq combine fold_left snd fst].
  - split; auto. intros x. cbn. tauto.
  - destruct (IH (S s) (dict_set eq_dec d y s)) as [H1 H2].
    + rewrite dict_set_keys. destruct (in_dec eq_dec y (map fst d)); auto.
      eapply Permutation_NoDup; [apply Permutation_cons_append|]. constructor; auto.
    + split; auto. intros x. rewrite H2, dict_set_keys. cbn. destruct (in_dec eq_dec y (map fst d)) as [Hy|Hy].
      * split; [intuition|]. intros [H|[<-|H]]; auto.
      * rewrite in_app_iff. cbn. tauto.
Qed.
Lemma enum_loop_find ids : forall s d x, NoDup ids ->
  dict_find eq_dec (enum_loop s ids d) x = match find (fun p => if eq_dec x (snd p) then true else false) (combine (seq s (length ids)) ids) with
                                       | Some p => Some (fst p) | None => dict_find eq_dec d x end.
Proof.
  unfold enum_loop. induction ids as [|y ids IH]; intros s d x HN; cbn [length seq combine fold_left snd fst find]; auto.
  inversion HN as [|? ? Hy HN']; subst. rewrite IH by auto. rewrite dict_find_set.
  destruct (eq_dec x y) as [->|Hn].
  - destruct (find _ _) as [p|] eqn:E; auto. apply find_some in E as [E1 E2]. destruct (eq_dec y (snd p)) as [->|]; [|discriminate].
    exfalso. apply Hy. destruct p as [a b]. eapply in_combine_r; eauto.
  - reflexivity.
Qed.
Lemma make_mapper_iff ids : (exists m, make_mapper eq_dec ids = Ok m) <-> NoDup ids.
Proof.
  unfold make_mapper. change (enumerate_dict eq_dec ids) with (enum_loop 0 ids []).
  destruct (enum_loop_keys ids 0 [] (NoDup_nil _)) as [HN HI].
  set (d := enum_loop 0 ids []) in *. rewrite <- (map_length fst d).
  assert (Hincl : incl ids (map fst d)) by (intros x Hx; apply HI; auto).
  assert (Hincl' : incl (map fst d) ids) by (intros x Hx; apply HI in Hx as [[]|Hx]; auto).
  destruct (Nat.eqb_spec (length ids) (length (map fst d))) as [E|E].
  - split; [|intros _; eauto]. intros _. apply (NoDup_incl_NoDup (l := map fst d)); auto. now rewrite E.
  - split; [intros (m & H); discriminate|]. intros HN'. exfalso. apply E.
    apply Nat.le_antisymm; apply NoDup_incl_length; auto.
Qed.
Lemma make_mapper_fails ids : ~ NoDup ids -> make_mapper eq_dec ids = Fail ValueError.
Proof.
  intros H. destruct (make_mapper eq_dec ids) as [m|e| |] eqn:E.
  - exfalso. apply H, make_mapper_iff. eauto.
  - unfold make_mapper in E. destruct (_ =? _); congruence.
  - unfold make_mapper in E. destruct (_ =? _); congruence.
  - unfold make_mapper in E. destruct (_ =? _); congruence.
Qed.

(** First position of an id. *)
Fixpoint ipos (ids : list I) (x : I) : nat :=
  match ids with [] => 0 | y :: l => if eq_dec x y then 0 else S (ipos l x) end.
Lemma ipos_nth ids x d : In x ids -> ipos ids x < length ids /\ nth (ipos ids x) ids d = x.
Proof.
  induction ids as [|y l IH]; [intros []|]. intros H. cbn. destruct (eq_dec x y) as [->|Hn]; [split; [lia|auto]|].
  destruct H as [->|H]; [congruence|]. destruct (IH H). split; [lia|auto].
Qed.
Lemma find_combine ids x : forall s, find (fun p => if eq_dec x (snd p) then true else false) (combine (seq s (length ids)) ids) =
  if in_dec eq_dec x ids then Some (s + ipos ids x, x) else None.
Proof.
  induction ids as [|y l IH]; intros s; cbn [length seq combine find snd ipos]; auto.
  destruct (eq_dec x y) as [->|Hn].
  - destruct (in_dec eq_dec y (y :: l)) as [_|H]; [f_equal; f_equal; lia|exfalso; apply H; now left].
  - rewrite IH. destruct (in_dec eq_dec x l) as [H|H], (in_dec eq_dec x (y :: l)) as [H'|H']; auto.
    + f_equal. f_equal. lia.
    + exfalso. apply H'. now right.
    + exfalso. destruct H' as [->|H']; auto.
Qed.
Lemma mapper_find ids m x : make_mapper eq_dec ids = Ok m ->
  mp_ids m = ids /\ NoDup ids /\ dict_find eq_dec (mp_index m) x = if in_dec eq_dec x ids then Some (ipos ids x) else None.
Proof.
  intros H. assert (HN : NoDup ids) by (apply make_mapper_iff; eauto). unfold make_mapper in H.
  destruct (_ =? _); [|discriminate]. injection H as <-. cbn. split; auto. split; auto.
  change (enumerate_dict eq_dec ids) with (enum_loop 0 ids []). rewrite enum_loop_find by auto. rewrite find_combine.
  destruct (in_dec eq_dec x ids); auto.
Qed.
Lemma mapper_bijection ids m : make_mapper eq_dec ids = Ok m ->
  (forall x i, dict_find eq_dec (mp_index m) x = Some i <-> nth_error (mp_ids m) i = Some x) /\
  (forall x, dict_find eq_dec (mp_index m) x = None <-> ~ In x ids).
Proof.
  intros H. split.
  - intros x i. destruct (mapper_find ids m x H) as (-> & HN & ->). destruct (in_dec eq_dec x ids) as [Hx|Hx].
    + destruct (ipos_nth ids x x Hx) as [H1 H2]. split.
      * intros [= <-]. rewrite <- H2 at 2. now apply nth_error_nth'.
      * intros Hi. f_equal. assert (Hi' : i < length ids) by (apply nth_error_Some; congruence).
        apply (proj1 (NoDup_nth ids x) HN); auto. rewrite H2. symmetry. now apply nth_error_nth.
    + split; [discriminate|]. intros Hi. exfalso. apply Hx. eapply nth_error_In; eauto.
  - intros x. destruct (mapper_find ids m x H) as (_ & HN & ->). destruct (in_dec eq_dec x ids); split; auto; try discriminate. intros; contradiction.
Qed.
Lemma index_list_spec ids m : make_mapper eq_dec ids = Ok m -> forall l,
  index_list eq_dec m l = map (ipos ids) (filter (fun x => if in_dec eq_dec x ids then true else false) l).
Proof.
  intros H. induction l as [|x l IH]; cbn; auto. destruct (mapper_find ids m x H) as (_ & _ & ->).
  destruct (in_dec eq_dec x ids); cbn; now rewrite IH.
Qed.

(** ** Pools *)
Lemma filter_combine_id ids row x : NoDup ids -> length ids = length row -> In x ids ->
  filter (fun p : I * score => if eq_dec (fst p) x then true else false) (combine ids row) = [(x, nth (ipos ids x) row NegInf)].
Proof.
  revert row. induction ids as [|y l IH]; intros [|s row] HN HL Hx; cbn in HL; try discriminate; [destruct Hx|].
  inversion HN as [|? ? Hy HN']; subst. cbn. destruct (eq_dec y x) as [->|Hn].
  - destruct (eq_dec x x); [|congruence]. f_equal. clear -Hy. revert row. induction l as [|z l IH]; intros [|s row]; cbn; auto.
    destruct (eq_dec z x) as [->|]; [exfalso; apply Hy; now left|]. apply IH. intros H. apply Hy. now right.
  - destruct (eq_dec x y); [congruence|]. apply IH; auto. destruct Hx; [congruence|auto].
Qed.
Lemma filter_combine_none ids row x : ~ In x ids ->
  filter (fun p : I * score => if eq_dec (fst p) x then true else false) (combine ids row) = [].
Proof.
  revert row. induction ids as [|y l IH]; intros [|s row] Hx; cbn; auto. destruct (eq_dec y x) as [->|]; [exfalso; apply Hx; now left|].
  apply IH. intros H. apply Hx. now right.
Qed.
(** Position/score pairs with ids in place of positions. *)
Definition with_id (ids : list I) (d : I) (row : list score) (i : nat) : I * score := (nth i ids d, nth i row NegInf).
Lemma combine_seq ids row d : length ids = length row -> combine ids row = map (with_id ids d row) (seq 0 (length row)).
Proof.
  revert row. induction ids as [|y l IH]; intros [|s row] HL; cbn in HL; try discriminate; auto.
  cbn [combine length seq map]. f_equal. rewrite <- seq_shift, map_map. apply IH. lia.
Qed.
Lemma offered_allowed ids m row d a : make_mapper eq_dec ids = Ok m -> length ids = length row ->
  offered eq_dec ids row (Some a) = map (with_id ids d row) (index_list eq_dec m a).
Proof.
  intros H HL. rewrite (index_list_spec ids m H). destruct (mapper_find ids m) with (x := d) as (_ & HN & _); auto.
  cbn. induction a as [|x a IH]; cbn; auto. rewrite IH. destruct (in_dec eq_dec x ids) as [Hx|Hx]; cbn.
  - rewrite filter_combine_id by auto. cbn. f_equal. unfold with_id. destruct (ipos_nth ids x d Hx) as [_ ->]. reflexivity.
  - now rewrite filter_combine_none.
Qed.
Lemma index_list_range ids m a : make_mapper eq_dec ids = Ok m -> Forall (fun i => i < length ids) (index_list eq_dec m a).
Proof.
  intros H. rewrite (index_list_spec ids m H). apply Forall_forall. intros i Hi. apply in_map_iff in Hi as (x & <- & Hx).
  apply filter_In in Hx as [_ Hx]. destruct (in_dec eq_dec x ids) as [Hin|]; [|discriminate].
  destruct ids as [|y l]; [destruct Hin|]. apply (ipos_nth (y :: l) x y Hin).
Qed.

(** ** The single-user call *)
Lemma rec_loop_spec ids row cutoff forbidden d inds : length ids = length row -> Forall (fun i => i < length row) inds -> forall acc,
  (Z.of_nat (length acc) < Z.max 1 cutoff)%Z ->
  rec_loop eq_dec ids row cutoff forbidden inds acc =
  Ok (acc ++ firstn (Z.to_nat (Z.max 1 cutoff) - length acc)
       (filter (fun p => match snd p with Fin _ => negb (banned eq_dec forbidden (fst p)) | _ => false end) (map (with_id ids d row) inds))).
Proof.
  intros HL. induction inds as [|i inds IH]; intros HF acc Hacc; cbn [rec_loop map filter].
  - rewrite firstn_nil, app_nil_r. reflexivity.
  - inversion HF as [|? ? Hi HF']; subst.
    rewrite (nth_error_nth' row NegInf Hi), (nth_error_nth' ids d) by lia.
    change (with_id ids d row i) with (nth i ids d, nth i row NegInf). cbn [snd fst].
    assert (Eb : match forbidden with Some f => id_mem eq_dec (nth i ids d) f | None => false end = banned eq_dec forbidden (nth i ids d)).
    { unfold banned. destruct forbidden as [f|]; auto. unfold id_mem. destruct (in_dec eq_dec (nth i ids d) f) as [H|H].
      - apply existsb_exists. exists (nth i ids d). split; auto. now destruct (eq_dec _ _).
      - destruct (existsb _ f) eqn:E; auto. apply existsb_exists in E as (y & Hy & E). destruct (eq_dec _ y) as [<-|]; [contradiction|discriminate]. }
    rewrite Eb. destruct (nth i row NegInf) as [|q|] eqn:Es; cbn [isinf]; try (now apply IH).
    destruct (banned eq_dec forbidden (nth i ids d)) eqn:Eb'; cbn [negb]; [now apply IH|].
    assert (Hlen : length (acc ++ [(nth i ids d, Fin q)]) = S (length acc)) by (rewrite app_length; cbn; lia).
    destruct (Z.leb_spec cutoff (Z.of_nat (length (acc ++ [(nth i ids d, Fin q)])))) as [Hc|Hc].
    + rewrite Hlen in Hc. replace (Z.to_nat (Z.max 1 cutoff) - length acc) with 1 by lia. cbn. reflexivity.
    + rewrite IH by (auto; lia). rewrite <- app_assoc. cbn [app]. rewrite Hlen.
      replace (Z.to_nat (Z.max 1 cutoff) - length acc) with (S (Z.to_nat (Z.max 1 cutoff) - S (length acc))) by lia.
      reflexivity.
Qed.

Lemma sorted_filter {X} (R : X -> X -> Prop) (p : X -> bool) l : StronglySorted R l -> StronglySorted R (filter p l).
Proof.
  induction 1 as [|a l H IH HF]; cbn; [constructor|]. destruct (p a); auto. constructor; auto.
  rewrite Forall_forall in *. intros x Hx. apply filter_In in Hx as [Hx _]. auto.
Qed.
Lemma sorted_map {X Y} (f : X -> Y) (R : Y -> Y -> Prop) l : StronglySorted (fun a b => R (f a) (f b)) l -> StronglySorted R (map f l).
Proof. induction 1 as [|a l H IH HF]; cbn; constructor; auto. rewrite Forall_forall in *. intros y Hy. apply in_map_iff in Hy as (x & <- & Hx). auto. Qed.
Lemma sorted_impl_in {X} (R S : X -> X -> Prop) l : (forall a b, In a l -> In b l -> R a b -> S a b) -> StronglySorted R l -> StronglySorted S l.
Proof.
  induction l as [|a l IH]; intros H HS; [constructor|]. inversion HS as [|? ? H1 H2]; subst. constructor.
  - apply IH; auto. intros x y Hx Hy. apply H; now right.
  - rewrite Forall_forall in *. intros x Hx. apply H; auto; [now left|now right].
Qed.
Lemma sorted_rev {X} (R : X -> X -> Prop) l : StronglySorted R l -> StronglySorted (fun a b => R b a) (rev l).
Proof.
  induction 1 as [|a l H IH HF]; cbn; [constructor|]. apply strongly_sorted_app; auto; [repeat constructor|].
  intros x y Hx [<-|[]]. apply in_rev in Hx. rewrite Forall_forall in HF. auto.
Qed.
Lemma sorted_firstn {X} (R : X -> X -> Prop) k l : StronglySorted R l -> StronglySorted R (firstn k l).
Proof. intros H. rewrite <- (firstn_skipn k l) in H. now apply strongly_sorted_app_inv in H. Qed.
Lemma scmp_notlt_notgt a b : scmp a b <> Lt -> scmp b a <> Gt.
Proof. rewrite (scmp_antisym a b). destruct (scmp a b); cbn; congruence. Qed.
Lemma scmp_notgt_notlt a b : scmp a b <> Gt -> scmp b a <> Lt.
Proof. rewrite (scmp_antisym a b). destruct (scmp a b); cbn; congruence. Qed.

(** A prefix of a descending list is a best selection. *)
Lemma firstn_best {X} (pool l : list (X * score)) k :
  Permutation l pool -> StronglySorted (fun a b => scmp (snd a) (snd b) <> Lt) l -> best pool k (firstn k l).
Proof.
  intros HP HS. exists (skipn k l). rewrite firstn_skipn. split; auto. split; [now apply sorted_firstn|].
  split; [rewrite firstn_length; now rewrite (Permutation_length HP)|].
  intros a b Ha Hb. rewrite <- (firstn_skipn k l) in HS. apply strongly_sorted_app_inv in HS as (_ & _ & H).
  apply scmp_notlt_notgt. now apply H.
Qed.

Lemma filter_perm {X} (p : X -> bool) l l' : Permutation l l' -> Permutation (filter p l) (filter p l').
Proof.
  induction 1; cbn; auto.
  - destruct (p x); auto.
  - destruct (p x), (p y); auto. apply perm_swap.
  - etransitivity; eauto.
Qed.

Lemma recommended_items_best argsort ids m row cutoff allowed forbidden : sorts argsort ->
  make_mapper eq_dec ids = Ok m -> length row = length ids ->
  exists l, recommended_items eq_dec argsort m row cutoff allowed forbidden = Ok l /\
    best (pool_finite eq_dec ids row allowed forbidden) (Z.to_nat (Z.max 1 cutoff)) l.
Proof.
  intros HA HM HL. unfold recommended_items. destruct (make_mapper_iff ids) as [Hiff _].
  assert (Hids : mp_ids m = ids).
  { unfold make_mapper in HM. destruct (_ =? _); [|discriminate]. now injection HM as <-. }
  rewrite Hids, HL, Nat.eqb_refl. cbn [negb].
  destruct ids as [|x0 ids0].
  { (* no items *)
    destruct row; [|discriminate]. exists []. split.
    - destruct allowed as [a|].
      + assert (E : index_list eq_dec m a = []).
        { pose proof (index_list_range [] m a HM) as H. destruct (index_list eq_dec m a); auto. inversion H; subst. cbn in *. lia. }
        rewrite E. cbn. destruct (HA []) as [HP _]. cbn in HP. apply Permutation_sym, Permutation_nil in HP. rewrite HP. reflexivity.
      + destruct (HA []) as [HP _]. cbn in HP. apply Permutation_sym, Permutation_nil in HP. rewrite HP. reflexivity.
    - exists []. assert (E : pool_finite eq_dec [] [] allowed forbidden = []).
      { unfold pool_finite, offered. destruct allowed as [a|]; auto. induction a; cbn; auto. }
      rewrite E. split; [constructor|]. split; [constructor|]. split; [cbn; lia|]. intros ? ? []. }
  set (ids := x0 :: ids0) in *. set (d := x0).
  assert (G : forall inds, Forall (fun i => i < length row) inds ->
     Permutation (map (with_id ids d row) inds) (offered eq_dec ids row allowed) ->
     StronglySorted (fun a b => scmp (nth a row NegInf) (nth b row NegInf) <> Lt) inds ->
     exists l, rec_loop eq_dec ids row cutoff forbidden inds [] = Ok l /\
       best (pool_finite eq_dec ids row allowed forbidden) (Z.to_nat (Z.max 1 cutoff)) l).
  { intros inds HF HP HS. rewrite (rec_loop_spec ids row cutoff forbidden d inds) by (auto; cbn; lia). cbn [app length].
    rewrite Nat.sub_0_r. eexists. split; [reflexivity|]. apply firstn_best.
    - unfold pool_finite. now apply filter_perm.
    - apply sorted_filter, sorted_map. cbn. exact HS. }
  destruct allowed as [a|].
  - set (inds := index_list eq_dec m a). set (v := map (fun i => nth i row NegInf) inds).
    destruct (HA v) as [HP HS]. apply G.
    + apply Forall_forall. intros i Hi. apply in_map_iff in Hi as (k & <- & Hk). apply in_rev in Hk.
      apply (Permutation_in _ HP) in Hk. apply in_seq in Hk. unfold v in Hk. rewrite map_length in Hk.
      pose proof (index_list_range ids m a HM) as HR. rewrite Forall_forall in HR. rewrite HL. apply HR, nth_In. fold inds. cbn in Hk. lia.
    + rewrite (offered_allowed ids m row d a HM) by auto. apply Permutation_map.
      fold inds. apply Permutation_trans with (map (fun k => nth k inds 0) (seq 0 (length v))).
      * apply Permutation_map. rewrite <- Permutation_rev. exact HP.
      * assert (E : map (fun k => nth k inds 0) (seq 0 (length v)) = inds); [|rewrite E; auto].
        unfold v. rewrite map_length. apply (nth_ext _ _ 0 0); [now rewrite map_length, seq_length|].
        intros k Hk. rewrite map_length, seq_length in Hk.
        rewrite (nth_indep _ 0 (nth 0 inds 0)) by (now rewrite map_length, seq_length).
        rewrite (map_nth (fun k => nth k inds 0)), seq_nth; auto.
    + apply sorted_map. apply sorted_rev in HS. eapply sorted_impl_in; [|exact HS]. cbn beta.
      intros p q Hp Hq H. apply in_rev in Hp, Hq. apply (Permutation_in _ HP) in Hp, Hq. apply in_seq in Hp, Hq.
      unfold v in Hp, Hq, H. rewrite map_length in Hp, Hq.
      set (f := fun i => nth i row NegInf) in H.
      assert (E : forall k, k < length inds -> nth k (map f inds) NegInf = f (nth k inds 0)).
      { intros k Hk. rewrite (nth_indep _ NegInf (f 0)) by (now rewrite map_length). apply map_nth. }
      rewrite !E in H by lia. now apply scmp_notgt_notlt.
  - destruct (HA row) as [HP HS]. apply G.
    + apply Forall_forall. intros i Hi. apply in_rev in Hi. apply (Permutation_in _ HP) in Hi. apply in_seq in Hi. lia.
    + cbn [offered]. rewrite (combine_seq ids row d) by auto. apply Permutation_map. rewrite <- Permutation_rev. exact HP.
    + apply sorted_rev in HS. eapply sorted_impl_in; [|exact HS]. intros. now apply scmp_notgt_notlt.
Qed.

(** ** The batch call *)
Lemma take_loop_firstn cutoff l : forall k,
  exists a b, take_loop cutoff k l = a /\ firstn (cutoff - k) l = a ++ b /\
    Forall (fun p => snd p <> NegInf) a /\ (b = [] \/ exists p b', b = p :: b' /\ snd p = NegInf).
Proof.
  induction l as [|p l IH]; intros k; cbn.
  - exists [], []. rewrite firstn_nil. repeat split; auto.
  - destruct (Nat.leb_spec cutoff k) as [H|H].
    + exists [], []. replace (cutoff - k) with 0 by lia. repeat split; auto.
    + replace (cutoff - k) with (S (cutoff - S k)) by lia. cbn [firstn]. destruct (IH (S k)) as (a & b & H1 & H2 & H3 & H4).
      destruct (snd p) eqn:E.
      * exists [], (p :: firstn (cutoff - S k) l). repeat split; auto. right. eauto.
      * exists (p :: a), b. rewrite H1, H2. repeat split; auto. constructor; auto. congruence.
      * exists (p :: a), b. rewrite H1, H2. repeat split; auto. constructor; auto. congruence.
Qed.
Lemma scmp_neginf_min s : scmp NegInf s <> Lt -> s = NegInf.
Proof. destruct s; cbn; congruence. Qed.

Lemma filter_id {X} (p : X -> bool) l : Forall (fun x => p x = true) l -> filter p l = l.
Proof. induction 1 as [|x l H _ IH]; cbn; auto. now rewrite H, IH. Qed.
Lemma filter_none {X} (p : X -> bool) l : Forall (fun x => p x = false) l -> filter p l = [].
Proof. induction 1 as [|x l H _ IH]; cbn; auto. now rewrite H. Qed.

Lemma take_best psort (cand : list (nat * score)) cutoff : partially_sorts psort ->
  best (filter (fun p => match snd p with NegInf => false | _ => true end) cand) cutoff
       (take_loop cutoff 0 (psort (min cutoff (length cand)) cand)).
Proof.
  intros HP. set (m := min cutoff (length cand)). destruct (HP m cand) as (P1 & P2 & P3). set (s := psort m cand) in *.
  destruct (take_loop_firstn cutoff s 0) as (a & b & -> & E & Ha & Hb). rewrite Nat.sub_0_r in E.
  set (fin := fun p : nat * score => match snd p with NegInf => false | _ => true end).
  assert (Hlen : length s = length cand) by apply (Permutation_length P1).
  assert (Em : firstn cutoff s = firstn m s).
  { unfold m. destruct (Nat.le_ge_cases cutoff (length cand)); [now rewrite Nat.min_l|]. rewrite Nat.min_r by auto.
    rewrite !firstn_all2; auto; lia. }
  rewrite Em in E. assert (Es : s = a ++ b ++ skipn m s) by (rewrite app_assoc, <- E; symmetry; apply firstn_skipn).
  assert (Hfa : filter fin a = a).
  { apply filter_id. eapply Forall_impl; [|exact Ha]. intros p Hp. unfold fin. destruct (snd p) eqn:E0; congruence. }
  assert (Hpool : Permutation (a ++ filter fin (b ++ skipn m s)) (filter fin cand)).
  { rewrite <- Hfa at 1. rewrite <- filter_app, <- Es. now apply filter_perm. }
  assert (Hsa : StronglySorted (fun x y => scmp (snd x) (snd y) <> Lt) a).
  { rewrite E in P2. now apply strongly_sorted_app_inv in P2. }
  exists (filter fin (b ++ skipn m s)). split; auto. split; auto. split.
  - rewrite <- (Permutation_length Hpool), app_length. destruct Hb as [->|(p & b' & -> & Hp)].
    + cbn [app]. rewrite app_nil_r in E. assert (La : length a = m) by (rewrite <- E, firstn_length; lia).
      destruct (Nat.le_ge_cases cutoff (length cand)) as [H|H].
      * unfold m in La. rewrite Nat.min_l in La by auto. lia.
      * assert (skipn m s = []) as ->; [|cbn; lia]. apply skipn_all2. unfold m. lia.
    + assert (filter fin ((p :: b') ++ skipn m s) = []) as ->.
      { apply filter_none. apply Forall_forall. intros x Hx.
        assert (snd x = NegInf) as Hx'; [|unfold fin; now rewrite Hx'].
        apply in_app_or in Hx as [[<-|Hx]|Hx]; auto.
        - apply scmp_neginf_min. rewrite <- Hp. rewrite E in P2. apply strongly_sorted_app_inv in P2 as (_ & P2 & _).
          inversion P2 as [|? ? _ HF]; subst. rewrite Forall_forall in HF. now apply HF.
        - apply scmp_neginf_min. rewrite <- Hp. apply P3; auto. rewrite E. apply in_or_app. right. now left. }
      assert (La : length a + S (length b') = m) by (apply (f_equal (@length _)) in E; rewrite app_length, firstn_length in E; cbn in E; lia).
      cbn. unfold m in La. lia.
  - intros x y Hx Hy. apply filter_In in Hy as [Hy _]. apply scmp_notlt_notgt. apply in_app_or in Hy as [Hy|Hy].
    + rewrite E in P2. apply strongly_sorted_app_inv in P2 as (_ & _ & P2). now apply P2.
    + apply P3; auto. rewrite E. apply in_or_app. now left.
Qed.

Lemma best_map {X Y} (f : X -> Y) (pool l : list (X * score)) k : best pool k l ->
  best (map (fun p => (f (fst p), snd p)) pool) k (map (fun p => (f (fst p), snd p)) l).
Proof.
  intros (rest & H1 & H2 & H3 & H4). exists (map (fun p => (f (fst p), snd p)) rest). split; [rewrite <- map_app; now apply Permutation_map|].
  split; [apply sorted_map; exact H2|]. split; [now rewrite !map_length|].
  intros a b Ha Hb. apply in_map_iff in Ha as (a' & <- & Ha), Hb as (b' & <- & Hb). cbn. auto.
Qed.
Lemma oall_ok {X} (l : list X) : oall (map Ok l) = Ok l.
Proof. induction l as [|x l IH]; cbn; auto. now rewrite IH. Qed.
Lemma oall_map_ok {X Y} (f : X -> outcome Y) (g : X -> Y) l : (forall x, In x l -> f x = Ok (g x)) -> oall (map f l) = Ok (map g l).
Proof. induction l as [|x l IH]; intros H; cbn; auto. rewrite H by now left. cbn. rewrite IH; [reflexivity|]. intros y Hy. apply H. now right. Qed.
Lemma oall_inv {X Y} (f : X -> outcome Y) l r : oall (map f l) = Ok r -> Forall2 (fun x y => f x = Ok y) l r.
Proof.
  revert r. induction l as [|x l IH]; intros r; cbn.
  - intros [= <-]. constructor.
  - destruct (f x) as [y|e| |] eqn:E; cbn; try discriminate. destruct (oall (map f l)) as [r'|e| |]; cbn; try discriminate.
    intros [= <-]. constructor; auto.
Qed.
Lemma Forall2_len {X Y} (R : X -> Y -> Prop) l r : Forall2 R l r -> length l = length r.
Proof. induction 1; cbn; auto. Qed.
Lemma best_perm {X} (p p' : list (X * score)) k l : Permutation p p' -> best p k l -> best p' k l.
Proof. intros H (rest & H1 & H2 & H3 & H4). exists rest. split; [etransitivity; eauto|]. split; auto. split; auto. now rewrite <- (Permutation_length H). Qed.
Lemma best_in {X} (p : list (X * score)) k l a : best p k l -> In a l -> In a p.
Proof. intros (rest & H1 & _) H. eapply Permutation_in; [exact H1|]. apply in_or_app. now left. Qed.

Lemma set_neginf_length row cols : length (set_neginf row cols) = length row.
Proof. unfold set_neginf. revert row; induction cols as [|c cols IH]; intros row; cbn; auto. rewrite IH. apply update_nth_length. Qed.
Lemma nth_update_nth {X} (l : list X) k x i d : k < length l -> nth i (update_nth l k x) d = if i =? k then x else nth i l d.
Proof.
  revert k i; induction l as [|a l IH]; intros [|k] [|i] H; cbn in *; auto; try lia. apply IH. lia.
Qed.
Lemma set_neginf_nth row cols i : Forall (fun c => c < length row) cols ->
  nth i (set_neginf row cols) NegInf = if existsb (Nat.eqb i) cols then NegInf else nth i row NegInf.
Proof.
  unfold set_neginf. revert row; induction cols as [|c cols IH]; intros row H; cbn; auto.
  inversion H as [|? ? Hc H']; subst. rewrite IH by (rewrite update_nth_length; auto). rewrite nth_update_nth by auto.
  destruct (i =? c); cbn; auto. now destruct (existsb _ cols).
Qed.

Lemma batch_pool fl ids m row d allowed forbidden : fl NegInf = NegInf -> make_mapper eq_dec ids = Ok m -> length row = length ids ->
  let row' := match forbidden with None => row | Some f => set_neginf row (index_list eq_dec m f) end in
  let inds := match allowed with None => seq 0 (length ids) | Some a => index_list eq_dec m a end in
  map (fun p => (nth (fst p) ids d, snd p))
    (filter (fun p : nat * score => match snd p with NegInf => false | _ => true end) (map (fun i => (i, fl (nth i row' NegInf))) inds))
  = pool_batch eq_dec fl ids row allowed forbidden.
Proof.
  intros Hfl HM HL row' inds. unfold pool_batch.
  assert (Eo : offered eq_dec ids row allowed = map (with_id ids d row) inds).
  { destruct allowed as [a|]; [now apply offered_allowed|]. cbn. unfold inds. rewrite <- HL. now apply combine_seq. }
  rewrite Eo.
  assert (HR : Forall (fun i => i < length ids) inds).
  { destruct allowed as [a|]; [now apply (index_list_range ids m)|]. apply Forall_forall. intros i Hi. apply in_seq in Hi. lia. }
  clear Eo. destruct (mapper_find ids m d HM) as (_ & HN & _).
  assert (Er : forall i, i < length ids -> nth i row' NegInf = if banned eq_dec forbidden (nth i ids d) then NegInf else nth i row NegInf).
  { intros i Hi. unfold row', banned. destruct forbidden as [f|]; auto.
    rewrite set_neginf_nth by (rewrite HL; now apply (index_list_range ids m)).
    replace (existsb (Nat.eqb i) (index_list eq_dec m f)) with (if in_dec eq_dec (nth i ids d) f then true else false).
    { destruct (in_dec eq_dec (nth i ids d) f); reflexivity. }
    rewrite (index_list_spec ids m HM). destruct (in_dec eq_dec (nth i ids d) f) as [H|H].
    - symmetry. apply existsb_exists. exists i. split; [|apply Nat.eqb_refl]. apply in_map_iff. exists (nth i ids d).
      assert (Hin : In (nth i ids d) ids) by now apply nth_In. split.
      + destruct (ipos_nth ids (nth i ids d) d Hin) as [H1 H2]. apply (proj1 (NoDup_nth ids d) HN); auto.
      + apply filter_In. split; auto. now destruct (in_dec eq_dec (nth i ids d) ids).
    - symmetry. destruct (existsb _ _) eqn:E; auto. apply existsb_exists in E as (j & Hj & E). apply Nat.eqb_eq in E. subst j.
      apply in_map_iff in Hj as (x & Hx & Hin). apply filter_In in Hin as [Hin Hx']. destruct (in_dec eq_dec x ids) as [Hxi|]; [|discriminate].
      exfalso. apply H. destruct (ipos_nth ids x d Hxi) as [_ H2]. rewrite Hx in H2. now rewrite H2. }
  clearbody row' inds. clear -HR Er Hfl. induction inds as [|i inds IH]; cbn [map filter]; auto.
  inversion HR as [|? ? Hi HR']; subst. cbn [snd]. rewrite (Er i Hi).
  unfold with_id at 1. cbn [fst]. destruct (banned eq_dec forbidden (nth i ids d)); cbn [negb map filter].
  - rewrite Hfl. now apply IH.
  - cbn [with_id fst snd]. unfold with_id at 1. cbn [fst snd]. destruct (fl (nth i row NegInf)); cbn [map fst snd]; rewrite IH by auto; reflexivity.
Qed.

Definition batch_rows (m : mapper I) (scores : dense) (forbidden : option (list (list I))) : list (list score) :=
  match forbidden with
  | None => d_rows scores
  | Some f => map (fun u => set_neginf (nth u (d_rows scores) []) (index_list eq_dec m (nth u f []))) (seq 0 (length (d_rows scores)))
  end.

Lemma batch_best fl psort ids m scores cutoff allowed per_user forbidden n_threads launched sched l :
  partially_sorts psort -> fl NegInf = NegInf -> make_mapper eq_dec ids = Ok m ->
  Forall (fun r => length r = length ids) (d_rows scores) -> d_cols scores = length ids -> d_rows scores = [] \/ 1 <= launched ->
  snd (recommended_items_batch eq_dec fl psort m scores cutoff allowed per_user forbidden n_threads launched sched) = Ok l ->
  length l = length (d_rows scores) /\
  (forall p, per_user = Some p -> length p = length l) /\ (forall f, forbidden = Some f -> length f = length l) /\
  forall u, u < length l ->
    best (pool_batch eq_dec fl ids (nth u (d_rows scores) []) (batch_allowed allowed per_user u) (batch_forbidden forbidden u)) cutoff (nth u l []).
Proof.
  intros HP Hfl HM HR HC Hl. unfold recommended_items_batch.
  assert (Hids : mp_ids m = ids).
  { unfold make_mapper in HM. destruct (_ =? _); [|discriminate]. now injection HM as <-. }
  rewrite Hids, HC, Nat.eqb_refl. cbn [negb].
  destruct (match forbidden with Some f => negb (length f =? length (d_rows scores)) | None => false end) eqn:Ef; [discriminate|].
  destruct (match per_user with Some p => negb (length p =? length (d_rows scores)) | None => false end) eqn:Ep; [discriminate|].
  cbn [snd]. fold (batch_rows m scores forbidden). set (rows' := batch_rows m scores forbidden).
  set (al := match per_user with Some p => map (index_list eq_dec m) p | None => match allowed with Some a => [index_list eq_dec m a] | None => [] end end).
  assert (Lr : length rows' = length (d_rows scores)) by (unfold rows', batch_rows; destruct forbidden; auto; now rewrite map_length, seq_length).
  assert (Hl' : length rows' = 0 \/ 1 <= launched) by (destruct Hl as [Hl|Hl]; [left; now rewrite Lr, Hl|now right]).
  unfold retrieve_recommend, check_arg. destruct (0 <? n_threads); [|discriminate].
  destruct ((length rows' =? length al) || (length al =? 1) || (length al =? 0)) eqn:Ec; [|discriminate].
  unfold await. destruct (completed _) eqn:Ecomp; [|discriminate].
  unfold retrieve_pool in *. rewrite (table_filled (length rows') 1 (fun r => retrieve_row fl psort (length ids) (nth r rows' []) al r cutoff)) by auto.
  destruct (oall (map _ (seq 0 (length rows')))) as [raw|e| |] eqn:Eraw; cbn [obind]; try discriminate.
  intros Eout. apply oall_inv in Eraw, Eout.
  assert (L1 : length raw = length rows') by (apply Forall2_len in Eraw; rewrite seq_length in Eraw; auto).
  assert (L2 : length l = length raw) by (apply Forall2_len in Eout; auto).
  assert (Hf : forall f, forbidden = Some f -> length f = length l).
  { intros f ->. apply negb_false_iff, Nat.eqb_eq in Ef. lia. }
  assert (Hp : forall p, per_user = Some p -> length p = length l).
  { intros p ->. apply negb_false_iff, Nat.eqb_eq in Ep. lia. }
  split; [lia|]. split; auto. split; auto. intros u Hu.
  assert (Eu : retrieve_row fl psort (length ids) (nth u rows' []) al u cutoff = Ok (nth u raw [])).
  { assert (G : forall k, k < length raw -> retrieve_row fl psort (length ids) (nth (nth k (seq 0 (length rows')) 0) rows' []) al (nth k (seq 0 (length rows')) 0) cutoff = Ok (nth k raw [])).
    { clear -Eraw. induction Eraw as [|a b s r H _ IH]; intros [|k] Hk; cbn in *; try lia; auto. apply IH. lia. }
    specialize (G u ltac:(lia)). rewrite seq_nth in G by lia. exact G. }
  assert (Eo : to_ids ids (nth u raw []) = Ok (nth u l [])).
  { clear -Eout Hu L2. revert u Hu. induction Eout as [|a b s r H _ IH]; intros [|k] Hk; cbn in *; try lia; auto. apply IH; lia. }
  set (row := nth u (d_rows scores) []).
  assert (Hrow : length row = length ids) by (rewrite Forall_forall in HR; apply HR, nth_In; lia).
  assert (Er' : nth u rows' [] = match batch_forbidden forbidden u with None => row | Some f => set_neginf row (index_list eq_dec m f) end).
  { unfold rows', batch_rows, batch_forbidden. destruct forbidden as [f|]; cbn; auto.
    set (g := fun u => set_neginf (nth u (d_rows scores) []) (index_list eq_dec m (nth u f []))).
    rewrite (nth_indep _ [] (g 0)) by (rewrite map_length, seq_length; lia). rewrite map_nth, seq_nth by lia. reflexivity. }
  set (inds := match batch_allowed allowed per_user u with None => seq 0 (length ids) | Some a => index_list eq_dec m a end).
  assert (HRi : Forall (fun i => i < length ids) inds).
  { unfold inds. destruct (batch_allowed allowed per_user u) as [a|]; [now apply (index_list_range ids m)|]. apply Forall_forall. intros i Hi. apply in_seq in Hi. lia. }
  assert (Ecand : candidates fl (length ids) (nth u rows' []) al u = Ok (map (fun i => (i, fl (nth i (nth u rows' []) NegInf))) inds)).
  { assert (Efil : forall a, filter (fun i => i <? length ids) (index_list eq_dec m a) = index_list eq_dec m a).
    { intros a. apply filter_id. eapply Forall_impl; [|apply (index_list_range ids m a HM)]. intros i Hi. now apply Nat.ltb_lt. }
    unfold candidates, inds, al, batch_allowed. destruct per_user as [p|].
    - assert (Lp := Hp p eq_refl). destruct p as [|a [|b p]].
      + cbn in Lp. lia.
      + cbn in Lp. assert (u = 0) as -> by lia. cbn [map nth]. now rewrite Efil.
      + cbn [map]. change (index_list eq_dec m a :: index_list eq_dec m b :: map (index_list eq_dec m) p) with (map (index_list eq_dec m) (a :: b :: p)).
        rewrite (nth_error_nth' _ (index_list eq_dec m [])) by (rewrite map_length; lia). rewrite map_nth, Efil. reflexivity.
    - destruct allowed as [a|]; auto. now rewrite Efil. }
  unfold retrieve_row in Eu. rewrite Ecand in Eu. cbn in Eu. injection Eu as Eu.
  assert (HB := take_best psort (map (fun i => (i, fl (nth i (nth u rows' []) NegInf))) inds) cutoff HP). rewrite Eu in HB.
  assert (Hd : ids = [] \/ exists x0 : I, True) by (destruct ids as [|y]; [now left|right; now exists y]). destruct Hd as [Hd|(x0 & _)].
  { (* no items: everything is empty *)
    clear Hids. subst ids.
    assert (inds = []) by (clear -HRi; clearbody inds; destruct inds as [|i0 r0]; [reflexivity|]; apply Forall_inv in HRi; inversion HRi). rewrite H in HB. cbn in HB.
    assert (nth u raw [] = []) as Er0.
    { destruct (nth u raw []) as [|p0 r0] eqn:E0; auto. exfalso. apply (best_in _ _ _ p0) in HB; [destruct HB|now left]. }
    rewrite Er0 in Eo. cbn in Eo. injection Eo as <-. destruct row; [|discriminate]. exists [].
    assert (E : pool_batch eq_dec fl [] [] (batch_allowed allowed per_user u) (batch_forbidden forbidden u) = []).
    { unfold pool_batch, offered. destruct (batch_allowed allowed per_user u) as [a|]; auto. replace (flat_map _ a) with (@nil (I * score)); auto. clear. induction a; cbn; auto. }
    rewrite E. cbn. split; [constructor|]. split; [constructor|]. split; [cbn; lia|]. intros ? ? []. }
  set (dd := x0).
  assert (Eo' : to_ids ids (nth u raw []) = Ok (map (fun p => (nth (fst p) ids dd, snd p)) (nth u raw []))).
  { unfold to_ids. apply oall_map_ok. intros p Hp'. apply (best_in _ _ _ p) in HB; auto. apply filter_In in HB as [HB _].
    apply in_map_iff in HB as (i & <- & Hi). cbn. rewrite Forall_forall in HRi. rewrite (nth_error_nth' _ dd) by (apply HRi; auto). reflexivity. }
  rewrite Eo' in Eo. injection Eo as <-.
  rewrite <- (batch_pool fl ids m row dd) by auto. cbn zeta. fold inds. rewrite <- Er'.
  apply (best_map (fun i => nth i ids dd)). exact HB.
Qed.

(** Never an exception for well-formed input under a fair schedule. *)
Lemma batch_answers fl psort ids m scores cutoff allowed per_user forbidden n_threads launched sched :
  partially_sorts psort -> make_mapper eq_dec ids = Ok m ->
  Forall (fun r => length r = length ids) (d_rows scores) -> d_cols scores = length ids -> d_rows scores = [] \/ 1 <= launched -> 1 <= n_threads ->
  (forall p, per_user = Some p -> length p = length (d_rows scores)) -> (forall f, forbidden = Some f -> length f = length (d_rows scores)) ->
  (forall t, t < launched -> 3 * length (d_rows scores) + 1 <= count_occ Nat.eq_dec sched t) ->
  exists l, snd (recommended_items_batch eq_dec fl psort m scores cutoff allowed per_user forbidden n_threads launched sched) = Ok l.
Proof.
  intros HP HM HR HC Hl Ht Hp Hf Hs. unfold recommended_items_batch.
  assert (Hids : mp_ids m = ids).
  { unfold make_mapper in HM. destruct (_ =? _); [|discriminate]. now injection HM as <-. }
  rewrite Hids, HC, Nat.eqb_refl. cbn [negb].
  replace (match forbidden with Some f => negb (length f =? length (d_rows scores)) | None => false end) with false.
  2:{ destruct forbidden as [f|]; auto. rewrite (Hf f) by auto. now rewrite Nat.eqb_refl. }
  replace (match per_user with Some p => negb (length p =? length (d_rows scores)) | None => false end) with false.
  2:{ destruct per_user as [p|]; auto. rewrite (Hp p) by auto. now rewrite Nat.eqb_refl. }
  cbn [snd]. fold (batch_rows m scores forbidden). set (rows' := batch_rows m scores forbidden).
  set (al := match per_user with Some p => map (index_list eq_dec m) p | None => match allowed with Some a => [index_list eq_dec m a] | None => [] end end).
  assert (Lr : length rows' = length (d_rows scores)) by (unfold rows', batch_rows; destruct forbidden; auto; now rewrite map_length, seq_length).
  assert (Hl' : length rows' = 0 \/ 1 <= launched) by (destruct Hl as [Hl|Hl]; [left; now rewrite Lr, Hl|now right]).
  unfold retrieve_recommend, check_arg. destruct (Nat.ltb_spec 0 n_threads); [|lia].
  assert (Ec : (length rows' =? length al) || (length al =? 1) || (length al =? 0) = true).
  { unfold al. destruct per_user as [p|].
    - rewrite map_length, (Hp p), Lr, Nat.eqb_refl by auto. reflexivity.
    - destruct allowed; cbn; rewrite ?orb_true_r; auto. }
  rewrite Ec. unfold await.
  assert (Ecomp : completed (retrieve_pool fl psort (length ids) rows' al cutoff launched sched) = true).
  { apply fair_completes; auto. rewrite Lr. exact Hs. }
  rewrite Ecomp. unfold retrieve_pool in *. rewrite (table_filled (length rows') 1 (fun r => retrieve_row fl psort (length ids) (nth r rows' []) al r cutoff)) by auto.
  assert (G : forall u, u < length rows' -> exists r, retrieve_row fl psort (length ids) (nth u rows' []) al u cutoff = Ok r /\ Forall (fun p => fst p < length ids) r).
  { intros u Hu. unfold retrieve_row.
    assert (Hc : exists c, candidates fl (length ids) (nth u rows' []) al u = Ok c /\ Forall (fun p => fst p < length ids) c).
    { unfold candidates.
      assert (HF : forall a, Forall (fun p : nat * score => fst p < length ids) (map (fun i => (i, fl (nth i (nth u rows' []) NegInf))) (filter (fun i => i <? length ids) a))).
      { intros a. apply Forall_forall. intros p Hp'. apply in_map_iff in Hp' as (i & <- & Hi). apply filter_In in Hi as [_ Hi]. now apply Nat.ltb_lt. }
      assert (HF0 : Forall (fun p : nat * score => fst p < length ids) (map (fun i => (i, fl (nth i (nth u rows' []) NegInf))) (seq 0 (length ids)))).
      { apply Forall_forall. intros p Hp'. apply in_map_iff in Hp' as (i & <- & Hi). apply in_seq in Hi. cbn; lia. }
      destruct al as [|a [|b al']] eqn:Eal; [eauto|eauto|].
      assert (Hlt : u < length (a :: b :: al')).
      { rewrite <- Eal. unfold al in *. destruct per_user as [p|]; [rewrite map_length, (Hp p) by auto; lia|]. destruct allowed; discriminate. }
      rewrite (nth_error_nth' _ [] Hlt). eauto. }
    destruct Hc as (c & -> & HFc). cbn. eexists. split; [reflexivity|]. apply Forall_forall. intros p Hp'.
    apply (best_in _ _ _ p (take_best psort c cutoff HP)) in Hp'. apply filter_In in Hp' as [Hp' _]. rewrite Forall_forall in HFc. auto. }
  set (row_fun := fun u => match retrieve_row fl psort (length ids) (nth u rows' []) al u cutoff with Ok r => r | _ => [] end).
  rewrite (oall_map_ok _ row_fun).
  2:{ intros u Hu. apply in_seq in Hu. destruct (G u ltac:(lia)) as (r & Er & _). unfold row_fun. now rewrite Er. }
  cbn [obind]. rewrite map_map.
  assert (Hd : ids = [] \/ exists x0 : I, True) by (destruct ids as [|y]; [now left|right; now exists y]). destruct Hd as [Hd|(x0 & _)].
  - clear Hids. subst ids. eexists. rewrite (oall_map_ok _ (fun _ => [])); [reflexivity|]. intros u Hu. apply in_seq in Hu. destruct (G u ltac:(lia)) as (r & Er & HF).
    unfold row_fun. rewrite Er. destruct r as [|p r]; auto. inversion HF; subst. cbn in *. lia.
  - eexists. rewrite (oall_map_ok _ (fun u => map (fun p => (nth (fst p) ids x0, snd p)) (row_fun u))); [reflexivity|].
    intros u Hu. apply in_seq in Hu. destruct (G u ltac:(lia)) as (r & Er & HF). unfold row_fun. rewrite Er. unfold to_ids.
    apply oall_map_ok. intros p Hp'. rewrite Forall_forall in HF. now rewrite (nth_error_nth' _ x0) by (apply HF; auto).
Qed.

(** ** Consequences of [best] *)
Definition above (t : score) (p : I * score) : bool := match scmp (snd p) t with Gt => true | _ => false end.
Lemma count_above_perm t (l l' : list (I * score)) : Permutation l l' -> length (filter (above t) l) = length (filter (above t) l').
Proof. intros H. apply Permutation_length. now apply filter_perm. Qed.
Lemma filter_le {X} (p : X -> bool) l : length (filter p l) <= length l.
Proof. induction l as [|x l IH]; cbn; auto. destruct (p x); cbn; lia. Qed.
Lemma nth_firstn_lt {X} (l : list X) k i d : i < k -> nth i (firstn k l) d = nth i l d.
Proof. revert k i; induction l as [|a l IH]; intros [|k] [|i] H; cbn; auto; try lia. apply IH. lia. Qed.
Lemma sorted_nth_rel {X} (R : X -> X -> Prop) l d i j : StronglySorted R l -> i < j < length l -> R (nth i l d) (nth j l d).
Proof.
  intros H. revert i j. induction H as [|a l H IH HF]; intros i j Hij; cbn in *; [lia|]. destruct j as [|j]; [lia|]. destruct i as [|i].
  - rewrite Forall_forall in HF. apply HF, nth_In. lia.
  - apply IH. lia.
Qed.
Lemma best_scores (pool pool' : list (I * score)) k l l' : Permutation pool pool' -> best pool k l -> best pool' k l' ->
  Forall2 (fun a b => scmp (snd a) (snd b) = Eq) l l'.
Proof.
  assert (G : forall (P P' : list (I * score)) l l' d, Permutation P P' -> best P k l -> best P' k l' ->
     length l = length l' -> forall j, j < length l -> scmp (snd (nth j l d)) (snd (nth j l' d)) <> Gt).
  { clear. intros P P' l l' d HP (r & H1 & H2 & H3 & H4) (r' & H1' & H2' & H3' & H4') HL j Hj E.
    set (t := snd (nth j l' d)) in *.
    assert (Ht : forall p : I * score, scmp (snd p) t <> Gt -> above t p = false) by (intros p Hp; unfold above; destruct (scmp (snd p) t); congruence).
    assert (A : length (filter (above t) (l' ++ r')) <= j).
    { rewrite filter_app, app_length. rewrite (filter_none _ r').
      - cbn. rewrite Nat.add_0_r. rewrite <- (firstn_skipn j l'), filter_app, app_length. rewrite (filter_none _ (skipn j l')).
        + cbn. pose proof (filter_le (above t) (firstn j l')) as Hle. rewrite firstn_length in Hle. lia.
        + apply Forall_forall. intros p Hp. apply Ht. apply In_nth with (d := d) in Hp as (i & Hi & <-).
          rewrite skipn_length in Hi. replace (nth i (skipn j l') d) with (nth (j + i) l' d).
          2:{ rewrite <- (firstn_skipn j l') at 1. rewrite app_nth2; rewrite firstn_length; [f_equal; lia|lia]. }
          destruct i as [|i]; [rewrite Nat.add_0_r; fold t; rewrite scmp_refl; discriminate|].
          apply scmp_notlt_notgt. apply (sorted_nth_rel _ l' d j (j + S i) H2'). lia.
      - apply Forall_forall. intros p Hp. apply Ht. apply H4'; auto. apply nth_In. lia. }
    assert (B : j < length (filter (above t) (l ++ r))).
    { rewrite filter_app, app_length. rewrite <- (firstn_skipn (S j) l), filter_app, app_length. rewrite (filter_id _ (firstn (S j) l)).
      - rewrite firstn_length. lia.
      - apply Forall_forall. intros p Hp. unfold above.
        assert (Hp' : scmp (snd p) (snd (nth j l d)) <> Lt).
        { apply In_nth with (d := d) in Hp as (i & Hi & <-). rewrite firstn_length in Hi.
          rewrite nth_firstn_lt by lia. destruct (Nat.eq_dec i j) as [->|Hij]; [rewrite scmp_refl; discriminate|].
          apply (sorted_nth_rel _ l d i j H2). lia. }
        assert (E' : scmp t (snd (nth j l d)) = Lt) by (rewrite scmp_antisym, E; reflexivity).
        destruct (scmp (snd p) (snd (nth j l d))) eqn:E2; try congruence.
        + rewrite (scmp_eq_trans_l _ _ t E2). now rewrite E.
        + assert (E3 : scmp (snd (nth j l d)) (snd p) = Lt) by (rewrite scmp_antisym, E2; reflexivity).
          pose proof (scmp_lt_trans _ _ _ E' E3) as E4. rewrite scmp_antisym, E4. reflexivity. }
    assert (C : length (filter (above t) (l ++ r)) = length (filter (above t) (l' ++ r'))).
    { apply count_above_perm. rewrite H1, H1'. exact HP. }
    lia. }
  intros HP HB HB'.
  assert (HL : length l = length l').
  { destruct HB as (r & _ & _ & H3 & _), HB' as (r' & _ & _ & H3' & _). rewrite H3, H3'. now rewrite (Permutation_length HP). }
  assert (N : forall j d, j < length l -> scmp (snd (nth j l d)) (snd (nth j l' d)) = Eq).
  { intros j d Hj. pose proof (G _ _ _ _ d HP HB HB' HL j Hj) as G1.
    pose proof (G _ _ _ _ d (Permutation_sym HP) HB' HB (eq_sym HL) j ltac:(lia)) as G2.
    rewrite (scmp_antisym (snd (nth j l d))) in G2. destruct (scmp (snd (nth j l d)) (snd (nth j l' d))); cbn in *; congruence. }
  clear -HL N. revert l' HL N. induction l as [|a l IH]; intros [|b l'] HL N; cbn in HL; try discriminate; constructor.
  - apply (N 0 a). cbn. lia.
  - apply IH; [lia|]. intros j d Hj. apply (N (S j) d). cbn. lia.
Qed.
End Ids.
