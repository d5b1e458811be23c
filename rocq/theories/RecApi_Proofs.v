(** Consequences for the API: who may be recommended, agreement, profiles. *)
From Coq Require Import Lqa.
From Verif Require Import Base Sched_Model Sched_Proofs Table_Proofs Sort_Proofs Eval_Model Eval_Proofs EvalPy_Model Rec_Spec Rec_Proofs.
Local Open Scope nat_scope.

Section Ids.
Context {I : Type}.
Variable eq_dec : forall a b : I, {a = b} + {a <> b}.

(** Membership in the offer, by position. *)
Lemma offered_in ids row allowed x s : length row = length ids ->
  In (x, s) (offered eq_dec ids row allowed) <->
  (exists i, nth_error ids i = Some x /\ nth_error row i = Some s) /\ match allowed with None => True | Some a => In x a end.
Proof.
  intros HL.
  assert (HC : In (x, s) (combine ids row) <-> exists i, nth_error ids i = Some x /\ nth_error row i = Some s).
  { clear -HL. revert row HL. induction ids as [|y ids IH]; intros [|t row] HL; cbn in HL; try discriminate; cbn.
    - split; [intros []|intros ([|i] & H & _); discriminate].
    - rewrite IH by lia. split.
      + intros [[= -> ->]|(i & H)]; [exists 0; auto|exists (S i); auto].
      + intros ([|i] & H1 & H2); cbn in *; [left; congruence|right; eauto]. }
  rewrite <- HC. destruct allowed as [a|]; cbn; [|tauto].
  rewrite in_flat_map. split.
  - intros (y & Hy & H). apply filter_In in H as [H1 H2]. cbn in H2. destruct (eq_dec x y) as [->|]; [auto|discriminate].
  - intros [H1 H2]. exists x. split; auto. apply filter_In. split; auto. cbn. now destruct (eq_dec x x).
Qed.
Lemma banned_spec forbidden x : banned eq_dec forbidden x = true <-> exists f, forbidden = Some f /\ In x f.
Proof.
  unfold banned. destruct forbidden as [f|].
  - destruct (in_dec eq_dec x f); split; try discriminate; eauto. intros (g & [= <-] & H). contradiction.
  - split; [discriminate|intros (f & H & _); discriminate].
Qed.
Lemma nodup_map_combine (ids : list I) (row : list score) : NoDup ids -> NoDup (map fst (combine ids row)).
Proof.
  revert row; induction ids as [|x ids IH]; intros [|s row] H; cbn; try constructor; inversion H as [|? ? Hx H']; subst; auto.
  intros Hin. apply in_map_iff in Hin as ([y t] & E & Hin). cbn in E. subst y. apply Hx. eapply in_combine_l; eauto.
Qed.
Lemma offered_nodup ids row allowed : NoDup ids -> length row = length ids -> match allowed with None => True | Some a => NoDup a end ->
  NoDup (map fst (offered eq_dec ids row allowed)).
Proof.
  intros HN HL HA. destruct allowed as [a|]; cbn; [|now apply nodup_map_combine].
  induction HA as [|x a Hx HA IH]; cbn; [constructor|]. rewrite map_app.
  destruct (in_dec eq_dec x ids) as [Hin|Hin].
  - rewrite filter_combine_id by auto. cbn. constructor; auto. intros H. apply in_map_iff in H as ([y t] & E & H). cbn in E. subst y.
    apply in_flat_map in H as (z & Hz & H). apply filter_In in H as [_ H]. cbn in H. destruct (eq_dec x z) as [->|]; [contradiction|discriminate].
  - rewrite filter_combine_none by auto. exact IH.
Qed.
Lemma nodup_map_filter {X Y} (f : X -> Y) p l : NoDup (map f l) -> NoDup (map f (filter p l)).
Proof.
  induction l as [|x l IH]; cbn; auto. intros H. inversion H as [|? ? Hx H']; subst. destruct (p x); cbn; auto. constructor; auto.
  intros Hin. apply Hx. apply in_map_iff in Hin as (y & E & Hin). apply filter_In in Hin as [Hin _]. rewrite <- E. now apply in_map.
Qed.
Lemma nodup_app_l {X} (l l' : list X) : NoDup (l ++ l') -> NoDup l.
Proof. induction l as [|x l IH]; cbn; intros H; [constructor|]. inversion H as [|? ? Hx H']; subst. constructor; auto. intros Hin. apply Hx, in_or_app. auto. Qed.
Lemma best_nodup {X} (pool : list (X * score)) k l : best pool k l -> NoDup (map fst pool) -> NoDup (map fst l).
Proof.
  intros (rest & H & _) HN. eapply Permutation_NoDup in HN; [|symmetry; apply Permutation_map; exact H].
  rewrite map_app in HN. now apply nodup_app_l in HN.
Qed.
(** What is left out is no better, and only because the list is full. *)
Lemma best_complete {X} (pool : list (X * score)) k l p : best pool k l -> In p pool -> ~ In p l ->
  length l = k /\ forall q, In q l -> scmp (snd p) (snd q) <> Gt.
Proof.
  intros (rest & H1 & H2 & H3 & H4) Hp Hn.
  assert (Hr : In p rest).
  { eapply Permutation_in in Hp; [|symmetry; exact H1]. apply in_app_or in Hp as [Hp|Hp]; [contradiction|auto]. }
  split; [|intros q Hq; now apply H4].
  assert (length rest <> 0) by (destruct rest; [destruct Hr|cbn; lia]).
  apply Permutation_length in H1. rewrite app_length in H1. lia.
Qed.

Lemma pool_finite_in ids row allowed forbidden x s : length row = length ids ->
  In (x, s) (pool_finite eq_dec ids row allowed forbidden) <-> eligible ids row allowed forbidden x s /\ exists q, s = Fin q.
Proof.
  intros HL. unfold pool_finite. rewrite filter_In, offered_in by auto. cbn [snd fst]. unfold eligible.
  assert (A : match allowed with Some a => In x a | None => True end <-> forall a, allowed = Some a -> In x a).
  { destruct allowed as [a|]; split; auto; try discriminate. intros H b [= <-]. auto. }
  assert (B : negb (banned eq_dec forbidden x) = true <-> forall f, forbidden = Some f -> ~ In x f).
  { rewrite negb_true_iff. split.
    - intros H f -> Hf. assert (banned eq_dec (Some f) x = true) by (apply banned_spec; eauto). congruence.
    - intros H. destruct (banned eq_dec forbidden x) eqn:E; auto. apply banned_spec in E as (f & E & Hf). exfalso. eapply H; eauto. }
  rewrite A. destruct s as [|q|].
  - split; [intros [_ H]; discriminate|intros [_ (q & H)]; discriminate].
  - rewrite B. split; [intros ((H1 & H2) & H3); split; eauto|intros ((H1 & H2 & H3) & _); auto].
  - split; [intros [_ H]; discriminate|intros [_ (q & H)]; discriminate].
Qed.
Lemma pool_batch_in fl ids row allowed forbidden x t : length row = length ids ->
  In (x, t) (pool_batch eq_dec fl ids row allowed forbidden) <-> exists s, eligible ids row allowed forbidden x s /\ t = fl s /\ t <> NegInf.
Proof.
  intros HL. unfold pool_batch. rewrite filter_In, in_map_iff. cbn [snd].
  assert (A : match allowed with Some a => In x a | None => True end <-> forall a, allowed = Some a -> In x a).
  { destruct allowed as [a|]; split; auto; try discriminate. intros H b [= <-]. auto. }
  assert (B : negb (banned eq_dec forbidden x) = true <-> forall f, forbidden = Some f -> ~ In x f).
  { rewrite negb_true_iff. split.
    - intros H f -> Hf. assert (banned eq_dec (Some f) x = true) by (apply banned_spec; eauto). congruence.
    - intros H. destruct (banned eq_dec forbidden x) eqn:E; auto. apply banned_spec in E as (f & E & Hf). exfalso. eapply H; eauto. }
  unfold eligible. split.
  - intros (([y s] & E & H) & Ht). cbn in E. injection E as -> <-. apply filter_In in H as [H1 H2]. cbn in H2. apply offered_in in H1; auto.
    rewrite A in H1. rewrite B in H2. exists s. destruct H1. repeat split; auto. destruct (fl s); congruence.
  - intros (s & (H1 & H2 & H3) & -> & Ht). split; [|destruct (fl s); congruence]. exists (x, s). split; auto. apply filter_In. cbn. rewrite B. split; auto.
    apply offered_in; auto. rewrite A. auto.
Qed.

Lemma best_respects conv good (ids : list I) row (allowed forbidden : option (list I)) k l pool :
  (forall x t, In (x, t) pool <-> exists s, eligible ids row allowed forbidden x s /\ t = conv s /\ good t) ->
  ((forall a, allowed = Some a -> NoDup a) -> NoDup (map fst pool)) ->
  best pool k l -> respects conv good ids row allowed forbidden k l.
Proof.
  intros HI HN HB. constructor.
  - destruct HB as (r & _ & _ & H & _). lia.
  - intros x t H. apply HI. eapply best_in; eauto.
  - now destruct HB as (r & _ & H & _).
  - intros x s He Hg Hn. destruct (best_complete pool k l (x, conv s) HB) as [H1 H2]; auto.
    + apply HI. eauto.
    + split; auto. intros y t Hy. apply (H2 (y, t) Hy).
  - intros H. eapply best_nodup; eauto.
Qed.

Lemma allowed_nodup (allowed : option (list I)) : (forall a, allowed = Some a -> NoDup a) -> match allowed with None => True | Some a => NoDup a end.
Proof. destruct allowed as [a|]; auto. Qed.

Lemma single_respects argsort ids m row cutoff allowed forbidden : sorts argsort ->
  make_mapper eq_dec ids = Ok m -> length row = length ids -> (1 <= cutoff)%Z ->
  exists l, recommended_items eq_dec argsort m row cutoff allowed forbidden = Ok l /\
    respects (fun s => s) finite ids row allowed forbidden (Z.to_nat cutoff) l.
Proof.
  intros HA HM HL Hc. destruct (recommended_items_best eq_dec argsort ids m row cutoff allowed forbidden HA HM HL) as (l & E & HB).
  exists l. split; auto. replace (Z.max 1 cutoff) with cutoff in HB by lia.
  assert (HN : NoDup ids) by (apply (make_mapper_iff eq_dec); eauto).
  eapply best_respects; [| |exact HB].
  - intros x t. rewrite pool_finite_in by auto. unfold finite. split; [intros (H1 & H2); eauto|intros (s & H1 & -> & H2); auto].
  - intros H. unfold pool_finite. apply nodup_map_filter. apply offered_nodup; auto. now apply allowed_nodup.
Qed.
Lemma batch_respects fl psort ids m scores cutoff allowed per_user forbidden n_threads launched sched l :
  partially_sorts psort -> fl NegInf = NegInf -> make_mapper eq_dec ids = Ok m ->
  Forall (fun r => length r = length ids) (d_rows scores) -> d_cols scores = length ids -> d_rows scores = [] \/ 1 <= launched ->
  snd (recommended_items_batch eq_dec fl psort m scores cutoff allowed per_user forbidden n_threads launched sched) = Ok l ->
  length l = length (d_rows scores) /\
  forall u, u < length l ->
    respects fl (fun s => s <> NegInf) ids (nth u (d_rows scores) []) (batch_allowed allowed per_user u) (batch_forbidden forbidden u) cutoff (nth u l []).
Proof.
  intros HP Hfl HM HR HC Hl E. destruct (batch_best eq_dec fl psort ids m scores cutoff allowed per_user forbidden n_threads launched sched l HP Hfl HM HR HC Hl E) as (H1 & _ & _ & H2).
  assert (HN : NoDup ids) by (apply (make_mapper_iff eq_dec); eauto).
  split; auto. intros u Hu.
  assert (HL : length (nth u (d_rows scores) []) = length ids) by (rewrite Forall_forall in HR; apply HR, nth_In; lia).
  eapply best_respects; [| |apply H2; auto].
  - intros x t. now apply pool_batch_in.
  - intros H. unfold pool_batch. apply nodup_map_filter. rewrite map_map. cbn. apply nodup_map_filter. apply offered_nodup; auto. now apply allowed_nodup.
Qed.

(** ** Agreement of single and batch calls (C25) *)
Lemma best_conv {X} (fl : score -> score) (pool l : list (X * score)) k : rounding fl -> best pool k l ->
  best (map (fun p => (fst p, fl (snd p))) pool) k (map (fun p => (fst p, fl (snd p))) l).
Proof.
  intros HF (rest & H1 & H2 & H3 & H4). exists (map (fun p => (fst p, fl (snd p))) rest). split; [rewrite <- map_app; now apply Permutation_map|].
  split; [|split; [now rewrite !map_length|]].
  - apply sorted_map. cbn. eapply sorted_impl_in; [|exact H2]. cbn. intros a b _ _ H. apply scmp_notgt_notlt, HF, scmp_notlt_notgt, H.
  - intros a b Ha Hb. apply in_map_iff in Ha as (a' & <- & Ha), Hb as (b' & <- & Hb). cbn. apply HF. auto.
Qed.
Lemma pools_agree fl ids row allowed forbidden : length row = length ids -> fl NegInf = NegInf ->
  (forall s, In s row -> s <> PosInf) -> (forall q, In (Fin q) row -> fl (Fin q) <> NegInf) ->
  pool_batch eq_dec fl ids row allowed forbidden = map (fun p => (fst p, fl (snd p))) (pool_finite eq_dec ids row allowed forbidden).
Proof.
  intros HL Hfl HI HF. unfold pool_batch, pool_finite.
  assert (Hin : forall p, In p (offered eq_dec ids row allowed) -> In (snd p) row).
  { intros [x s] H. apply offered_in in H as [(i & _ & H) _]; auto. eapply nth_error_In; eauto. }
  induction (offered eq_dec ids row allowed) as [|[x s] o IH]; [reflexivity|]. cbn [filter snd fst].
  assert (Hs : In s row) by (apply (Hin (x, s)); now left).
  assert (IH' := IH (fun p Hp => Hin p (or_intror Hp))). clear IH.
  destruct (banned eq_dec forbidden x); cbn [negb map filter fst snd].
  - destruct s; auto.
  - destruct s as [|q|].
    + now rewrite Hfl.
    + pose proof (HF q Hs). cbn [map fst snd]. destruct (fl (Fin q)) eqn:E; [congruence| |]; rewrite IH'; reflexivity.
    + exfalso. now apply (HI PosInf).
Qed.
Lemma single_batch_agree argsort fl psort ids m scores cutoff allowed per_user forbidden n_threads launched sched l :
  sorts argsort -> partially_sorts psort -> rounding fl -> make_mapper eq_dec ids = Ok m ->
  Forall (fun r => length r = length ids) (d_rows scores) -> d_cols scores = length ids -> d_rows scores = [] \/ 1 <= launched -> 1 <= cutoff ->
  (forall r s, In r (d_rows scores) -> In s r -> s <> PosInf) ->
  (forall r q, In r (d_rows scores) -> In (Fin q) r -> fl (Fin q) <> NegInf) ->
  snd (recommended_items_batch eq_dec fl psort m scores cutoff allowed per_user forbidden n_threads launched sched) = Ok l ->
  length l = length (d_rows scores) /\
  forall u, u < length l -> exists l1,
    recommended_items eq_dec argsort m (nth u (d_rows scores) []) (Z.of_nat cutoff) (batch_allowed allowed per_user u) (batch_forbidden forbidden u) = Ok l1 /\
    Forall2 (fun a b => scmp (fl (snd a)) (snd b) = Eq) l1 (nth u l []).
Proof.
  intros HA HP HF HM HR HC Hl Hc HI HI' E.
  destruct (batch_best eq_dec fl psort ids m scores cutoff allowed per_user forbidden n_threads launched sched l HP (fl_neginf fl HF) HM HR HC Hl E) as (H1 & _ & _ & H2).
  split; auto. intros u Hu. set (row := nth u (d_rows scores) []).
  assert (Hin : In row (d_rows scores)) by (apply nth_In; lia).
  assert (HL : length row = length ids) by (rewrite Forall_forall in HR; now apply HR).
  destruct (recommended_items_best eq_dec argsort ids m row (Z.of_nat cutoff) (batch_allowed allowed per_user u) (batch_forbidden forbidden u) HA HM HL) as (l1 & E1 & HB).
  exists l1. split; auto. specialize (H2 u Hu). fold row in H2. replace (Z.to_nat (Z.max 1 (Z.of_nat cutoff))) with cutoff in HB by lia.
  rewrite pools_agree in H2; auto; [|apply HF|eauto|eauto].
  pose proof (best_scores _ _ _ _ _ (Permutation_refl _) (best_conv fl _ _ _ HF HB) H2) as HS.
  clear -HS. revert HS. generalize (nth u l []). induction l1 as [|a l1 IH]; intros l0 HS; inversion HS; subst; constructor; auto.
Qed.
(** With pairwise different scores the items agree too. *)
Lemma best_items (pool : list (I * score)) k l l' :
  (forall a b, In a pool -> In b pool -> scmp (snd a) (snd b) = Eq -> fst a = fst b) ->
  best pool k l -> best pool k l' -> map fst l = map fst l'.
Proof.
  intros HD HB HB'. pose proof (best_scores _ _ _ _ _ (Permutation_refl _) HB HB') as HS.
  assert (Hl : forall a, In a l -> In a pool) by (intros a; now apply best_in with (k := k)).
  assert (Hl' : forall a, In a l' -> In a pool) by (intros a; now apply best_in with (k := k)).
  clear HB HB'. induction HS as [|a b l l' H HS IH]; cbn; auto. f_equal.
  - apply HD; auto; [apply Hl|apply Hl']; now left.
  - apply IH; intros c Hc; [apply Hl|apply Hl']; now right.
Qed.
Lemma single_batch_items argsort fl psort ids m scores cutoff allowed per_user forbidden n_threads launched sched l u l1 :
  sorts argsort -> partially_sorts psort -> rounding fl -> make_mapper eq_dec ids = Ok m ->
  Forall (fun r => length r = length ids) (d_rows scores) -> d_cols scores = length ids -> d_rows scores = [] \/ 1 <= launched -> 1 <= cutoff ->
  (forall r s, In r (d_rows scores) -> In s r -> s <> PosInf) ->
  (forall r q, In r (d_rows scores) -> In (Fin q) r -> fl (Fin q) <> NegInf) ->
  snd (recommended_items_batch eq_dec fl psort m scores cutoff allowed per_user forbidden n_threads launched sched) = Ok l ->
  u < length l ->
  (forall i j, i < length ids -> j < length ids -> i <> j -> scmp (fl (nth i (nth u (d_rows scores) []) NegInf)) (fl (nth j (nth u (d_rows scores) []) NegInf)) <> Eq) ->
  recommended_items eq_dec argsort m (nth u (d_rows scores) []) (Z.of_nat cutoff) (batch_allowed allowed per_user u) (batch_forbidden forbidden u) = Ok l1 ->
  map fst l1 = map fst (nth u l []).
Proof.
  intros HA HP HF HM HR HC Hl Hc HI HI' E Hu HD E1.
  destruct (batch_best eq_dec fl psort ids m scores cutoff allowed per_user forbidden n_threads launched sched l HP (fl_neginf fl HF) HM HR HC Hl E) as (H1 & _ & _ & H2).
  set (row := nth u (d_rows scores) []) in *.
  assert (Hin : In row (d_rows scores)) by (apply nth_In; lia).
  assert (HL : length row = length ids) by (rewrite Forall_forall in HR; now apply HR).
  destruct (recommended_items_best eq_dec argsort ids m row (Z.of_nat cutoff) (batch_allowed allowed per_user u) (batch_forbidden forbidden u) HA HM HL) as (l1' & E1' & HB).
  rewrite E1 in E1'. injection E1' as <-. specialize (H2 u Hu). fold row in H2. replace (Z.to_nat (Z.max 1 (Z.of_nat cutoff))) with cutoff in HB by lia.
  pose proof H2 as H2'. rewrite pools_agree in H2'; auto; [|apply HF|eauto|eauto].
  assert (Em : map fst l1 = map fst (map (fun p => (fst p, fl (snd p))) l1)) by (rewrite map_map; reflexivity).
  rewrite Em. apply (best_items _ cutoff) with (2 := best_conv fl _ _ _ HF HB) (3 := H2').
  intros a b Ha Hb Hab. apply in_map_iff in Ha as ([x s] & <- & Ha), Hb as ([y t] & <- & Hb). cbn in *.
  apply pool_finite_in in Ha as [((i & Hi1 & Hi2) & _) _], Hb as [((j & Hj1 & Hj2) & _) _]; auto.
  destruct (Nat.eq_dec i j) as [->|Hij]; [congruence|].
  exfalso. apply (HD i j); auto; try (apply nth_error_Some; congruence).
  now rewrite (nth_error_nth _ _ _ Hi2), (nth_error_nth _ _ _ Hj2).
Qed.
(** Threads and schedules never change a completed batch call. *)
Lemma batch_threads fl psort ids m scores cutoff allowed per_user forbidden n1 n2 k1 k2 s1 s2 l1 l2 :
  make_mapper eq_dec ids = Ok m ->
  d_rows scores = [] \/ 1 <= k1 -> d_rows scores = [] \/ 1 <= k2 ->
  recommended_items_batch eq_dec fl psort m scores cutoff allowed per_user forbidden n1 k1 s1 = l1 ->
  recommended_items_batch eq_dec fl psort m scores cutoff allowed per_user forbidden n2 k2 s2 = l2 ->
  is_ok (snd l1) = true -> is_ok (snd l2) = true -> l1 = l2.
Proof.
  intros HM H1 H2 <- <-. unfold recommended_items_batch.
  destruct (negb (d_cols scores =? length (mp_ids m))); [discriminate|].
  destruct (match forbidden with Some f => _ | None => false end); [discriminate|].
  destruct (match per_user with Some f => _ | None => false end); [discriminate|].
  cbn [snd]. set (rows' := match forbidden with Some f => _ | None => _ end). set (al := match per_user with Some p => _ | None => _ end).
  assert (Lr : d_rows scores = [] -> length rows' = 0).
  { intros E. unfold rows'. destruct forbidden; rewrite E; reflexivity. }
  assert (L1 : length rows' = 0 \/ 1 <= k1) by (destruct H1; auto). assert (L2 : length rows' = 0 \/ 1 <= k2) by (destruct H2; auto).
  intros O1 O2. f_equal. revert O1 O2. unfold retrieve_recommend, check_arg.
  destruct (0 <? n1), (0 <? n2); try discriminate. destruct (_ || _); try discriminate. unfold await.
  destruct (completed (retrieve_pool fl psort _ _ _ _ k1 s1)) eqn:C1; try discriminate.
  destruct (completed (retrieve_pool fl psort _ _ _ _ k2 s2)) eqn:C2; try discriminate.
  intros _ _. unfold retrieve_pool in *.
  rewrite (table_filled (length rows') 1 (fun r => retrieve_row fl psort (d_cols scores) (nth r rows' []) al r cutoff)) by auto.
  rewrite (table_filled (length rows') 1 (fun r => retrieve_row fl psort (d_cols scores) (nth r rows' []) al r cutoff)) by auto.
  reflexivity.
Qed.

(** ** Profiles (C26) *)
Definition prof_step (m : mapper I) (st : list Q * list nat * list nat * nat) (p : profile I) :=
  let '(data, col, indptr, cur) := st in
  let '(data_u, col_u) := profile_data_col eq_dec m p in
  let cur' := cur + length col_u in
  (data ++ data_u, col ++ col_u, indptr ++ [cur'], cur').
Lemma dict_data_len m d : length (fst (dict_data_col eq_dec m d)) = length (snd (dict_data_col eq_dec m d)).
Proof. induction d as [|[x s] d IH]; cbn; auto. destruct (dict_data_col eq_dec m d). destruct (dict_find _ _ _); cbn in *; auto. Qed.
Lemma profile_data_len m p : length (fst (profile_data_col eq_dec m p)) = length (snd (profile_data_col eq_dec m p)).
Proof. destruct p; cbn; [apply repeat_length|apply dict_data_len]. Qed.
Definition ulen (m : mapper I) (p : profile I) : nat := length (snd (profile_data_col eq_dec m p)).
(** Running totals. *)
Fixpoint totals (m : mapper I) (cur : nat) (ps : list (profile I)) : list nat :=
  match ps with [] => [] | p :: ps' => (cur + ulen m p) :: totals m (cur + ulen m p) ps' end.
Lemma prof_loop m ps : forall data col indptr cur,
  fold_left (prof_step m) ps (data, col, indptr, cur) =
  (data ++ concat (map (fun p => fst (profile_data_col eq_dec m p)) ps), col ++ concat (map (fun p => snd (profile_data_col eq_dec m p)) ps),
   indptr ++ totals m cur ps, cur + list_sum (map (ulen m) ps)).
Proof.
  induction ps as [|p ps IH]; intros data col indptr cur; cbn [fold_left map concat totals list_sum fold_right].
  - now rewrite !app_nil_r, Nat.add_0_r.
  - unfold prof_step at 2. destruct (profile_data_col eq_dec m p) as [du cu] eqn:E. rewrite IH. cbn [fst snd].
    assert (Eu : ulen m p = length cu) by (unfold ulen; now rewrite E). rewrite <- !app_assoc, Eu. cbn [app]. f_equal. symmetry; apply Nat.add_assoc.
Qed.
Lemma totals_nth m ps : forall cur u, u < length ps -> nth u (totals m cur ps) 0 = cur + list_sum (map (ulen m) (firstn (S u) ps)).
Proof.
  induction ps as [|p ps IH]; intros cur [|u] H; cbn in H; try lia.
  - cbn. lia.
  - cbn [totals nth]. rewrite IH by lia. cbn [firstn map]. unfold list_sum. cbn. lia.
Qed.
Lemma totals_length m ps cur : length (totals m cur ps) = length ps.
Proof. revert cur; induction ps; intros; cbn; auto. Qed.
Lemma slice_concat {X Y} (f : X -> list Y) ps : forall u d, u < length ps ->
  slice (concat (map f ps)) (list_sum (map (fun p => length (f p)) (firstn u ps))) (list_sum (map (fun p => length (f p)) (firstn (S u) ps))) = f (nth u ps d).
Proof.
  induction ps as [|p ps IH]; intros [|u] d H; cbn in H; try lia.
  - cbn. unfold slice. rewrite Nat.add_0_r, Nat.sub_0_r. rewrite firstn_app, firstn_all, Nat.sub_diag. cbn. apply app_nil_r.
  - cbn [firstn map concat nth]. specialize (IH u d ltac:(lia)). rewrite <- IH. unfold slice.
    cbn [list_sum fold_right]. change (fold_right Nat.add 0) with list_sum.
    rewrite skipn_app, skipn_all2 by lia. cbn [app]. f_equal; [|f_equal; lia]. cbn [firstn map]. unfold list_sum. cbn. lia.
Qed.
Lemma csr_row_profiles ids m ps u d : make_mapper eq_dec ids = Ok m -> u < length ps ->
  csr_row (profiles_to_matrix eq_dec m ps) u = combine (snd (profile_data_col eq_dec m (nth u ps d))) (fst (profile_data_col eq_dec m (nth u ps d))).
Proof.
  intros HM Hu. unfold profiles_to_matrix. fold (prof_step m). change (fun st p => prof_step m st p) with (prof_step m).
  match goal with |- context [fold_left ?g ps ?st] => change (fold_left g ps st) with (fold_left (prof_step m) ps st) end.
  rewrite prof_loop. unfold csr_row. cbn [csr_indptr csr_col csr_data app Nat.add].
  assert (E0 : nth u (0 :: totals m 0 ps) 0 = list_sum (map (ulen m) (firstn u ps))).
  { destruct u as [|u]; [reflexivity|]. cbn [nth]. rewrite totals_nth by lia. reflexivity. }
  assert (E1 : nth (S u) (0 :: totals m 0 ps) 0 = list_sum (map (ulen m) (firstn (S u) ps))) by (cbn [nth]; rewrite totals_nth by lia; reflexivity).
  rewrite E0, E1. f_equal.
  - apply (slice_concat (fun p => snd (profile_data_col eq_dec m p)) ps u d Hu).
  - assert (Ef : forall l, map (ulen m) l = map (fun p => length (fst (profile_data_col eq_dec m p))) l).
    { intros l. apply map_ext. intros p. unfold ulen. now rewrite profile_data_len. }
    rewrite !Ef. apply (slice_concat (fun p => fst (profile_data_col eq_dec m p)) ps u d Hu).
Qed.
(** The entries of a profile, by position. *)
Lemma profile_entries ids m p x i : make_mapper eq_dec ids = Ok m -> nth_error ids i = Some x ->
  (fold_right Qplus 0 (map snd (filter (fun e => (fst e =? i)%nat) (combine (snd (profile_data_col eq_dec m p)) (fst (profile_data_col eq_dec m p))))) == rating eq_dec p x)%Q.
Proof.
  intros HM Hi. destruct (mapper_bijection eq_dec ids m HM) as [HB _]. destruct (mapper_find eq_dec ids m x HM) as (Hids & _).
  assert (Hx : forall y j, dict_find eq_dec (mp_index m) y = Some j -> (j =? i = true <-> y = x)).
  { intros y j Hj. rewrite Nat.eqb_eq. apply HB in Hj. rewrite Hids in Hj. split; [intros ->; congruence|]. intros ->.
    assert (A1 : dict_find eq_dec (mp_index m) x = Some j) by (apply HB; now rewrite Hids).
    assert (A2 : dict_find eq_dec (mp_index m) x = Some i) by (apply HB; now rewrite Hids). congruence. }
  assert (Hxi : dict_find eq_dec (mp_index m) x = Some i) by (apply HB; now rewrite Hids).
  destruct p as [l|d]; cbn [profile_data_col fst snd rating].
  - induction l as [|y l IH]; [reflexivity|]. cbn [index_list]. destruct (dict_find eq_dec (mp_index m) y) as [j|] eqn:Ej.
    + cbn [length repeat combine filter fst count_occ]. destruct (j =? i) eqn:E.
      * apply (Hx y j Ej) in E. subst y. destruct (eq_dec x x); [|congruence]. cbn [map fold_right snd]. rewrite IH, Nat2Z.inj_succ.
        unfold Z.succ. rewrite inject_Z_plus. change (inject_Z 1) with 1%Q. ring.
      * destruct (eq_dec y x) as [->|]; [|exact IH]. assert (j =? i = true) by (now apply (Hx x j Ej)). congruence.
    + cbn [count_occ]. destruct (eq_dec y x) as [->|]; [congruence|exact IH].
  - induction d as [|[y s] d IH]; [reflexivity|]. cbn [dict_data_col filter fst]. destruct (dict_data_col eq_dec m d) as [data cols]. cbn [fst snd] in IH.
    destruct (dict_find eq_dec (mp_index m) y) as [j|] eqn:Ej; cbn [fst snd combine filter].
    + destruct (j =? i) eqn:E.
      * apply (Hx y j Ej) in E. subst y. destruct (eq_dec x x); [|congruence]. cbn [map fold_right snd]. now rewrite IH.
      * destruct (eq_dec y x) as [->|]; [|exact IH]. assert (j =? i = true) by (now apply (Hx x j Ej)). congruence.
    + destruct (eq_dec y x) as [->|]; [congruence|exact IH].
Qed.
Lemma profiles_shape ids m ps : make_mapper eq_dec ids = Ok m ->
  csr_n_rows (profiles_to_matrix eq_dec m ps) = length ps /\ csr_n_cols (profiles_to_matrix eq_dec m ps) = length ids.
Proof.
  intros HM. unfold profiles_to_matrix.
  match goal with |- context [fold_left ?g ps ?st] => change (fold_left g ps st) with (fold_left (prof_step m) ps st) end.
  rewrite prof_loop. cbn. split; auto.
  assert (Hids : mp_ids m = ids) by (unfold make_mapper in HM; destruct (_ =? _); [now injection HM as <-|discriminate]). now rewrite Hids.
Qed.
Lemma profiles_matrix ids m ps u i p x : make_mapper eq_dec ids = Ok m -> nth_error ps u = Some p -> nth_error ids i = Some x ->
  (csr_entry (profiles_to_matrix eq_dec m ps) u i == rating eq_dec p x)%Q.
Proof.
  intros HM Hu Hi. unfold csr_entry. rewrite (csr_row_profiles ids m ps u p HM) by (apply nth_error_Some; congruence).
  rewrite (nth_error_nth _ _ _ Hu). now apply (profile_entries ids).
Qed.

(** ** Seen items (C24) *)
Lemma in_combine_profile ids m p x i : make_mapper eq_dec ids = Ok m -> nth_error ids i = Some x ->
  mentions p x -> exists q, In (i, q) (combine (snd (profile_data_col eq_dec m p)) (fst (profile_data_col eq_dec m p))) /\ ~ (q == 0)%Q.
Proof.
  intros HM Hi Hm. destruct (mapper_bijection eq_dec ids m HM) as [HB _]. destruct (mapper_find eq_dec ids m x HM) as (Hids & _).
  assert (Hxi : dict_find eq_dec (mp_index m) x = Some i) by (apply HB; now rewrite Hids).
  destruct p as [l|d]; cbn [profile_data_col fst snd] in *.
  - exists 1%Q. split; [|intros H; discriminate H]. cbn in Hm. induction l as [|y l IH]; [destruct Hm|]. cbn [index_list].
    destruct Hm as [->|Hm].
    + rewrite Hxi. cbn. now left.
    + destruct (dict_find eq_dec (mp_index m) y); cbn; auto.
  - destruct Hm as (q & Hq & Hn). exists q. split; auto. induction d as [|[y s] d IH]; [destruct Hq|]. cbn [dict_data_col].
    destruct (dict_data_col eq_dec m d) as [data cols]. cbn [fst snd] in *. destruct Hq as [[= -> ->]|Hq].
    + rewrite Hxi. cbn. now left.
    + destruct (dict_find eq_dec (mp_index m) y); cbn; auto.
Qed.
Lemma apply_mask_row d mask d' k i : apply_mask d mask = Ok d' -> k < length (d_rows d) -> length (nth k (d_rows d) []) = d_cols d ->
  length (nth k (d_rows d') []) = d_cols d /\
  nth i (nth k (d_rows d') []) NegInf = if existsb (Nat.eqb i) (nth k mask []) then NegInf else nth i (nth k (d_rows d) []) NegInf.
Proof.
  unfold apply_mask. destruct (mask_in_range d mask) eqn:Em; [|discriminate]. intros [= <-] Hk HL. cbn [d_rows].
  set (g := fun k => set_neginf (nth k (d_rows d) []) (nth k mask [])).
  rewrite (nth_indep _ [] (g 0)) by (now rewrite map_length, seq_length). rewrite (map_nth g), seq_nth by auto. cbn [Nat.add]. unfold g.
  rewrite set_neginf_length. split; auto. apply set_neginf_nth. rewrite HL.
  unfold mask_in_range in Em. apply andb_true_iff in Em as [Em _]. rewrite forallb_forall in Em.
  destruct (Nat.lt_ge_cases k (length mask)) as [Hkm|Hkm].
  - specialize (Em (nth k mask []) (nth_In _ _ Hkm)). apply Forall_forall. intros c Hc. rewrite forallb_forall in Em. apply Nat.ltb_lt. auto.
  - rewrite nth_overflow by auto. constructor.
Qed.
Lemma apply_mask_dims d mask d' : apply_mask d mask = Ok d' -> d_cols d' = d_cols d /\ length (d_rows d') = length (d_rows d).
Proof. unfold apply_mask. destruct mask_in_range; intros [= <-]. cbn. now rewrite map_length, seq_length. Qed.
Lemma csr_nonzero_in x u i q : u < csr_n_rows x -> In (i, q) (csr_row x u) -> ~ (q == 0)%Q -> In i (nth u (csr_nonzero x) []).
Proof.
  intros Hu Hin Hq. unfold csr_nonzero.
  set (g := fun u => map fst (filter (fun e => negb (Qeq_bool (snd e) 0)) (csr_row x u))).
  rewrite (nth_indep _ [] (g 0)) by (now rewrite map_length, seq_length). rewrite (map_nth g), seq_nth by auto. cbn [Nat.add]. unfold g.
  apply in_map_iff. exists (i, q). split; auto. apply filter_In. split; auto. cbn. rewrite negb_true_iff.
  destruct (Qeq_bool q 0) eqn:E; auto. apply Qeq_bool_iff in E. contradiction.
Qed.
(** A masked item is never eligible with a score other than minus infinity. *)
Lemma masked_not_good d mask d' k (ids : list I) allowed forbidden x s i : apply_mask d mask = Ok d' -> k < length (d_rows d) ->
  length (nth k (d_rows d) []) = d_cols d -> NoDup ids -> nth_error ids i = Some x -> In i (nth k mask []) ->
  eligible ids (nth k (d_rows d') []) allowed forbidden x s -> s = NegInf.
Proof.
  intros E Hk HL HN Hi Hin ((j & Hj & Hs) & _).
  assert (j = i) as ->.
  { apply (proj1 (NoDup_nth_error ids) HN); [apply nth_error_Some; congruence|congruence]. }
  apply (nth_error_nth _ _ NegInf) in Hs. rewrite <- Hs. destruct (apply_mask_row d mask d' k i E Hk HL) as [_ ->].
  replace (existsb (Nat.eqb i) (nth k mask [])) with true; auto. symmetry. apply existsb_exists. exists i. split; auto. apply Nat.eqb_refl.
Qed.
(** Scores of recommendations are the recommender's. *)
Lemma masked_score d mask d' k (ids : list I) allowed forbidden x s : apply_mask d mask = Ok d' -> k < length (d_rows d) ->
  length (nth k (d_rows d) []) = d_cols d -> eligible ids (nth k (d_rows d') []) allowed forbidden x s -> s <> NegInf ->
  eligible ids (nth k (d_rows d) []) allowed forbidden x s.
Proof.
  intros E Hk HL ((j & Hj & Hs) & H) Hn. split; auto. exists j. split; auto.
  destruct (apply_mask_row d mask d' k j E Hk HL) as [HL' Hr]. assert (Hj' := Hs). apply (nth_error_nth _ _ NegInf) in Hs.
  assert (j < length (nth k (d_rows d') [])) by (apply nth_error_Some; congruence).
  rewrite (nth_error_nth' _ NegInf) by lia. f_equal. rewrite Hs in Hr. destruct (existsb _ _); congruence.
Qed.

Lemma new_user_respects argsort ids m rc p cutoff allowed forbidden l : sorts argsort -> make_mapper eq_dec ids = Ok m ->
  (forall x, csr_n_rows x = 1 -> exists r, rc_cold rc x = mkDense (length ids) [r] /\ length r = length ids) -> (1 <= cutoff)%Z ->
  recommend_new_user eq_dec argsort m rc p cutoff allowed forbidden = Ok l ->
  (Z.of_nat (length l) <= cutoff)%Z /\ (forall x s, In (x, s) l -> ~ mentions p x /\ exists X r, rc_cold rc X = mkDense (length ids) [r] /\
     (forall i y, nth_error ids i = Some y -> (csr_entry X 0 i == rating eq_dec p y)%Q) /\ eligible ids r allowed forbidden x s /\ finite s).
Proof.
  intros HA HM HC Hc. unfold recommend_new_user. destruct (negb _); [discriminate|].
  assert (Hids : mp_ids m = ids) by (unfold make_mapper in HM; destruct (_ =? _); [now injection HM as <-|discriminate]). rewrite Hids.
  destruct (profile_data_col eq_dec m p) as [data cols] eqn:Ep.
  set (X := mkCsr 1 (length ids) data cols [0; length cols]).
  assert (HN : NoDup ids) by (apply (make_mapper_iff eq_dec); eauto).
  destruct (HC X eq_refl) as (r & Er & Lr). unfold cold_score_remove_seen. rewrite Er.
  destruct (apply_mask _ _) as [d'|e| |] eqn:Em; try discriminate. cbn [obind].
  destruct (apply_mask_row _ _ d' 0 0 Em) as [L0 _]; cbn; auto. cbn in L0.
  destruct (single_respects argsort ids m (nth 0 (d_rows d') []) cutoff allowed forbidden HA HM L0 Hc) as (l' & -> & HR). intros [= <-].
  assert (Erow : csr_row X 0 = combine cols data).
  { unfold csr_row, X, slice. cbn. pose proof (profile_data_len m p) as HL. rewrite Ep in HL. cbn in HL.
    rewrite Nat.sub_0_r, firstn_all. rewrite <- HL, firstn_all. reflexivity. }
  split; [pose proof (rs_cutoff _ _ _ _ _ _ _ _ HR); lia|]. intros x s Hin.
  destruct (rs_eligible _ _ _ _ _ _ _ _ HR x s Hin) as (s' & He & -> & Hf). split.
  - intros Hm. destruct He as ((i & Hi & Hs) & He). destruct (in_combine_profile ids m p x i HM Hi Hm) as (q & Hq & Hq'). rewrite Ep in Hq. cbn in Hq.
    assert (s' = NegInf); [|destruct Hf; congruence].
    eapply (masked_not_good _ _ d' 0 ids allowed forbidden x s' i Em); cbn; auto.
    + apply (csr_nonzero_in X 0 i q); auto. now rewrite Erow.
    + split; eauto.
  - exists X, r. split; auto. split; [|split; auto].
    + intros i y Hi. unfold csr_entry. rewrite Erow. pose proof (profile_entries ids m p y i HM Hi) as H. rewrite Ep in H. exact H.
    + apply (masked_score _ _ d' 0 ids allowed forbidden x s' Em); cbn; auto. destruct Hf; congruence.
Qed.
Lemma new_users_respect fl psort ids m rc ps cutoff allowed per_user forbidden n_threads launched sched l :
  partially_sorts psort -> fl NegInf = NegInf -> make_mapper eq_dec ids = Ok m ->
  (forall x, d_cols (rc_cold rc x) = length ids /\ length (d_rows (rc_cold rc x)) = csr_n_rows x /\ Forall (fun r => length r = length ids) (d_rows (rc_cold rc x))) ->
  ps = [] \/ 1 <= launched ->
  recommend_new_users eq_dec fl psort m rc ps cutoff allowed per_user forbidden n_threads launched sched = Ok l ->
  length l = length ps /\ forall u p, nth_error ps u = Some p ->
    length (nth u l []) <= cutoff /\
    forall x t, In (x, t) (nth u l []) -> ~ mentions p x /\ exists s,
      eligible ids (nth u (d_rows (rc_cold rc (profiles_to_matrix eq_dec m ps))) []) (batch_allowed allowed per_user u) (batch_forbidden forbidden u) x s /\ t = fl s /\ t <> NegInf.
Proof.
  intros HP Hfl HM HC Hl. unfold recommend_new_users. destruct (negb _); [discriminate|].
  unfold cold_score_remove_seen. set (X := profiles_to_matrix eq_dec m ps). destruct (HC X) as (C1 & C2 & C3).
  destruct (profiles_shape ids m ps HM) as [S1 S2]. fold X in S1, S2.
  assert (HN : NoDup ids) by (apply (make_mapper_iff eq_dec); eauto).
  destruct (apply_mask _ _) as [d'|e| |] eqn:Em; try discriminate. cbn [obind]. intros E.
  destruct (apply_mask_dims _ _ _ Em) as [D1 D2].
  assert (HR : Forall (fun r => length r = length ids) (d_rows d')).
  { apply Forall_forall. intros r Hr. apply In_nth with (d := []) in Hr as (k & Hk & <-).
    destruct (apply_mask_row _ _ d' k 0 Em) as [-> _]; [lia| |congruence]. rewrite Forall_forall in C3. rewrite C1. apply C3, nth_In. lia. }
  destruct (batch_respects fl psort ids m d' cutoff allowed per_user forbidden n_threads launched sched l HP Hfl HM HR ltac:(congruence)) as (H1 & H2); auto.
  { destruct Hl as [->|Hl]; [left; apply length_zero_iff_nil; rewrite D2, C2, S1; reflexivity|auto]. }
  split; [congruence|]. intros u p Hu. assert (Hul : u < length ps) by (apply nth_error_Some; congruence).
  assert (Hrow : length (nth u (d_rows (rc_cold rc X)) []) = d_cols (rc_cold rc X)) by (rewrite C1; rewrite Forall_forall in C3; apply C3, nth_In; lia).
  specialize (H2 u ltac:(lia)). split; [apply H2|]. intros x t Hin.
  destruct (rs_eligible _ _ _ _ _ _ _ _ H2 x t Hin) as (s & He & -> & Hf). split.
  - intros Hm. pose proof He as He'. destruct He' as ((i & Hi & Hs) & _). destruct (in_combine_profile ids m p x i HM Hi Hm) as (q & Hq & Hq').
    assert (s = NegInf); [|congruence].
    eapply (masked_not_good _ _ d' u ids _ _ x s i Em); eauto; [lia|].
    apply (csr_nonzero_in X u i q); auto; [lia|]. unfold X. rewrite (csr_row_profiles ids m ps u p HM) by auto. now rewrite (nth_error_nth _ _ _ Hu).
  - exists s. split; auto. apply (masked_score _ _ d' u ids _ _ x s Em); auto; [lia|]. congruence.
Qed.
End Ids.

Section Users.
Context {U I : Type}.
Variable eq_u : forall a b : U, {a = b} + {a <> b}.
Variable eq_i : forall a b : I, {a = b} + {a <> b}.

Lemma id_mapper_iff us is : (exists m, make_id_mapper eq_u eq_i us is = Ok m) <-> NoDup us /\ NoDup is.
Proof.
  unfold make_id_mapper. rewrite <- (make_mapper_iff eq_u us), <- (make_mapper_iff eq_i is). split.
  - intros (m & H). destruct (make_mapper eq_i is) as [mi|e| |]; try discriminate. destruct (make_mapper eq_u us) as [mu|e| |]; try discriminate. eauto.
  - intros [(mu & ->) (mi & ->)]. cbn. eauto.
Qed.
Lemma id_mapper_fails us is : ~ (NoDup us /\ NoDup is) -> make_id_mapper eq_u eq_i us is = Fail ValueError.
Proof.
  intros H. unfold make_id_mapper. destruct (make_mapper eq_i is) as [mi|e| |] eqn:Ei.
  - cbn. rewrite (make_mapper_fails eq_u us); auto. intros Hu. apply H. split; auto. apply (make_mapper_iff eq_i). eauto.
  - cbn. unfold make_mapper in Ei. destruct (_ =? _); congruence.
  - unfold make_mapper in *. destruct (_ =? _); congruence.
  - unfold make_mapper in *. destruct (_ =? _); congruence.
Qed.
Lemma id_mapper_parts us is m : make_id_mapper eq_u eq_i us is = Ok m -> make_mapper eq_u us = Ok (im_users m) /\ make_mapper eq_i is = Ok (im_items m).
Proof.
  unfold make_id_mapper. destruct (make_mapper eq_i is) as [mi|e| |]; try discriminate. destruct (make_mapper eq_u us) as [mu|e| |]; try discriminate.
  cbn. intros [= <-]. auto.
Qed.

Lemma known_user_respects argsort us is m rc k u cutoff allowed forbidden l : sorts argsort -> make_id_mapper eq_u eq_i us is = Ok m ->
  scores_shape rc (length is) -> (1 <= cutoff)%Z -> nth_error us k = Some u ->
  recommend_known_user eq_u eq_i argsort m rc u cutoff allowed forbidden = Ok l ->
  (Z.of_nat (length l) <= cutoff)%Z /\ forall x s, In (x, s) l ->
    (forall i, nth_error is i = Some x -> ~ In i (nth k (rc_train rc) [])) /\
    eligible is (nth 0 (d_rows (rc_score rc [k])) []) allowed forbidden x s /\ finite s.
Proof.
  intros HA HM HS Hc Hk. destruct (id_mapper_parts us is m HM) as [HU HI]. unfold recommend_known_user.
  destruct (negb _); [discriminate|]. destruct (negb _); [discriminate|].
  destruct (mapper_bijection eq_u us _ HU) as [HB _]. destruct (mapper_find eq_u us _ u HU) as (Hids & _).
  assert (Ek : dict_find eq_u (mp_index (im_users m)) u = Some k) by (apply HB; now rewrite Hids). rewrite Ek.
  destruct (HS [k]) as (C1 & C2 & C3). unfold score_remove_seen. cbn [map].
  destruct (apply_mask _ _) as [d'|e| |] eqn:Em; try discriminate. cbn [obind].
  assert (H0 : 0 < length (d_rows (rc_score rc [k]))) by (rewrite C2; cbn; lia).
  assert (Hr0 : length (nth 0 (d_rows (rc_score rc [k])) []) = d_cols (rc_score rc [k])) by (rewrite C1; rewrite Forall_forall in C3; apply C3, nth_In; auto).
  destruct (apply_mask_row _ _ d' 0 0 Em H0 Hr0) as [L0 _]. rewrite C1 in L0.
  assert (HN : NoDup is) by (apply (make_mapper_iff eq_i); eauto).
  destruct (single_respects eq_i argsort is (im_items m) (nth 0 (d_rows d') []) cutoff allowed forbidden HA HI L0 Hc) as (l' & -> & HR). intros [= <-].
  split; [pose proof (rs_cutoff _ _ _ _ _ _ _ _ HR); lia|]. intros x s Hin. destruct (rs_eligible _ _ _ _ _ _ _ _ HR x s Hin) as (s' & He & -> & Hf).
  split; [|split; auto].
  - intros i Hi Hin'. assert (s' = NegInf); [|destruct Hf; congruence]. eapply (masked_not_good _ _ d' 0 is allowed forbidden x s' i Em); eauto.
  - apply (masked_score _ _ d' 0 is allowed forbidden x s' Em); auto. destruct Hf; congruence.
Qed.
Lemma known_users_respect fl psort us is m rc qs cutoff allowed per_user forbidden n_threads launched sched l :
  partially_sorts psort -> fl NegInf = NegInf -> make_id_mapper eq_u eq_i us is = Ok m -> scores_shape rc (length is) -> qs = [] \/ 1 <= launched ->
  recommend_known_users eq_u eq_i fl psort m rc qs cutoff allowed per_user forbidden n_threads launched sched = Ok l ->
  exists ks, Forall2 (fun u k => nth_error us k = Some u) qs ks /\ length l = length qs /\
  forall r k, nth_error ks r = Some k -> length (nth r l []) <= cutoff /\
    forall x t, In (x, t) (nth r l []) ->
      (forall i, nth_error is i = Some x -> ~ In i (nth k (rc_train rc) [])) /\
      exists s, eligible is (nth r (d_rows (rc_score rc ks)) []) (batch_allowed allowed per_user r) (batch_forbidden forbidden r) x s /\ t = fl s /\ t <> NegInf.
Proof.
  intros HP Hfl HM HS Hl. destruct (id_mapper_parts us is m HM) as [HU HI]. unfold recommend_known_users. destruct (negb _); [discriminate|].
  destruct (oall _) as [ks|e| |] eqn:Eks; try discriminate. cbn [obind]. apply oall_inv in Eks.
  assert (HF : Forall2 (fun u k => nth_error us k = Some u) qs ks).
  { destruct (mapper_bijection eq_u us _ HU) as [HB _]. clear -Eks HB HU.
    induction Eks as [|u k qs ks H _ IH]; constructor; auto. destruct (dict_find eq_u _ u) as [k'|] eqn:E; [|discriminate]. injection H as ->.
    apply HB in E. assert (Hids : mp_ids (im_users m) = us) by (destruct (mapper_find eq_u us _ u HU); auto). now rewrite Hids in E. }
  intros E. exists ks. split; auto. pose proof (Forall2_len _ _ _ HF) as Lks.
  destruct (HS ks) as (C1 & C2 & C3). unfold score_remove_seen in E. destruct (apply_mask _ _) as [d'|e| |] eqn:Em; try discriminate. cbn [obind] in E.
  destruct (apply_mask_dims _ _ _ Em) as [D1 D2].
  assert (HN : NoDup is) by (apply (make_mapper_iff eq_i); eauto).
  assert (HR : Forall (fun r => length r = length is) (d_rows d')).
  { apply Forall_forall. intros r Hr. apply In_nth with (d := []) in Hr as (k & Hk & <-).
    destruct (apply_mask_row _ _ d' k 0 Em) as [-> _]; [lia| |congruence]. rewrite Forall_forall in C3. rewrite C1. apply C3, nth_In. lia. }
  destruct (batch_respects eq_i fl psort is (im_items m) d' cutoff allowed per_user forbidden n_threads launched sched l HP Hfl HI HR ltac:(congruence)) as (H1 & H2); auto.
  { destruct Hl as [->|Hl]; [left; apply length_zero_iff_nil; rewrite D2, C2, <- Lks; reflexivity|auto]. }
  split; [congruence|]. intros r k Hk. assert (Hrl : r < length ks) by (apply nth_error_Some; congruence).
  assert (Hrow : length (nth r (d_rows (rc_score rc ks)) []) = d_cols (rc_score rc ks)) by (rewrite C1; rewrite Forall_forall in C3; apply C3, nth_In; lia).
  specialize (H2 r ltac:(lia)). split; [apply H2|]. intros x t Hin.
  destruct (rs_eligible _ _ _ _ _ _ _ _ H2 x t Hin) as (s & He & -> & Hf). split.
  - intros i Hi Hin'. assert (s = NegInf); [|congruence]. eapply (masked_not_good _ _ d' r is _ _ x s i Em); eauto; [lia|].
    set (g := fun u => nth u (rc_train rc) []). rewrite (nth_indep _ [] (g 0)) by (now rewrite map_length). rewrite (map_nth g), (nth_error_nth _ _ _ Hk). exact Hin'.
  - exists s. split; auto. apply (masked_score _ _ d' r is _ _ x s Em); auto; [lia|]. congruence.
Qed.
End Users.
