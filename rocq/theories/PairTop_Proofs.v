(** The frames of a partial user hold-out (C69). *)
From Coq Require Import Sorted.
From Verif Require Import Base Sort_Proofs Rec_Model Rec_Proofs Split_Proofs SplitDf_Proofs SplitTop_Proofs SplitTotal_Proofs Pair_Spec Pair_Proofs.
Local Open Scope nat_scope.

Lemma csr_col m r c v : In (c, v) (nth r (csr_rows m) []) -> r < c_rows m /\ c < c_cols m.
Proof.
  intros H. destruct (lt_dec r (c_rows m)) as [Hr|Hr].
  - split; auto. assert (In (nth r (csr_rows m) []) (csr_rows m)) as Hin by (apply nth_In; now rewrite csr_rows_length).
    unfold csr_rows in Hin at 2. apply in_map_iff in Hin as (r' & E & _). rewrite <- E in H. apply in_map_iff in H as (c' & [= <- _] & H). apply filter_In in H as [H _]. apply in_seq in H. lia.
  - rewrite nth_overflow in H by (rewrite csr_rows_length; lia). destruct H.
Qed.

Section Frames.
Context {U I T : Type}.
Notation event := (event U I T).

(** Frames and labels of one matrix. *)
Lemma labels_in (us : list U) (is : list I) m x y w : In (x, y, w) (labels us is m) <-> exists r c, In (r, c, w) (c_ent m) /\ nth_error us r = Some x /\ nth_error is c = Some y.
Proof.
  unfold labels. rewrite in_flat_map. split.
  - intros ([[r c] v] & Hin & H). cbn [fst snd] in H. destruct (nth_error us r) as [x'|] eqn:E1; [|destruct H]. destruct (nth_error is c) as [y'|] eqn:E2; [|destruct H].
    destruct H as [[= -> -> ->]|[]]. eauto.
  - intros (r & c & Hin & E1 & E2). exists (r, c, w). split; auto. cbn [fst snd]. rewrite E1, E2. now left.
Qed.
Lemma labels_nodup (us : list U) (is : list I) rows cols ent : in_shape (mkCoo rows cols ent) -> rows = length us -> cols = length is ->
  NoDup (map fst (labels us is (mkCoo rows cols ent))) -> NoDup (map fst ent).
Proof.
  intros Hs -> ->. assert (H : forall t, In t ent -> fst (fst t) < length us /\ snd (fst t) < length is) by (intros [[r c] v]; apply Hs). clear Hs.
  unfold labels. cbn [c_ent]. induction ent as [|[[r c] v] ent IH]; [constructor|]. cbn [flat_map map fst snd].
  destruct (H _ (or_introl eq_refl)) as [H1 H2]. cbn [fst snd] in H1, H2. apply nth_error_Some in H1, H2.
  destruct (nth_error us r) as [x|] eqn:E1; [|congruence]. destruct (nth_error is c) as [y|] eqn:E2; [|congruence]. cbn [app map fst]. intros HN. inversion HN as [|? ? Hx HN']; subst.
  constructor; [|apply IH; auto; intros t Ht; apply H; now right]. intros Hin. apply Hx. apply in_map_iff in Hin as ([[a b] w] & [= -> ->] & Hin).
  apply in_map_iff. exists (x, y, w). split; auto. apply in_flat_map. exists (r, c, w). split; auto. cbn [fst snd]. rewrite E1, E2. now left.
Qed.
Lemma frame_labels (us : list U) (is : list I) m rows : NoDup us -> NoDup is -> in_shape m -> c_rows m = length us -> c_cols m = length is ->
  NoDup (map fst (labels us is m)) -> frame_of us is m rows ->
  NoDup (map fst rows) /\ (forall x y v, In (x, y, v) rows -> exists w, In (x, y, w) (labels us is m) /\ (v == w)%Q) /\
  (forall x y w, In (x, y, w) (labels us is m) -> In (x, y) (map fst rows)).
Proof.
  intros Nu Ni Hm Er Ec HN (ps & HS & HO & F). destruct m as [nr nc ent]. pose proof (labels_nodup us is nr nc ent Hm Er Ec HN) as HE. apply sorted_nodup in HS.
  split; [|split].
  - clear HO HN. induction F as [|[i j] [[u k] v] ps rows (A & B & _) F IH]; [constructor|]. inversion HS as [|? ? Hx HS']; subst. cbn [map fst snd] in *. constructor; auto.
    intros Hin. apply in_map_iff in Hin as ([[u' k'] v'] & [= -> ->] & Hin). apply Hx.
    clear -F Hin A B Nu Ni. induction F as [|[i' j'] row ps rows (A' & B' & _) F IH]; [destruct Hin|]. destruct Hin as [->|Hin]; [|right; auto]. cbn [fst snd] in *. left.
    f_equal; [apply (proj1 (NoDup_nth_error us) Nu); [apply nth_error_Some|]|apply (proj1 (NoDup_nth_error is) Ni); [apply nth_error_Some|]]; congruence.
  - intros x y v Hin. assert (exists p, In p ps /\ nth_error us (fst p) = Some x /\ nth_error is (snd p) = Some y /\ (v == entry (mkCoo nr nc ent) (fst p) (snd p))%Q) as ([r c] & Hp & A & B & C).
    { clear -F Hin. induction F as [|p row ps rows (A & B & C) F IH]; [destruct Hin|]. destruct Hin as [->|Hin]; [exists p; split; [now left|auto]|]. destruct (IH Hin) as (q & Hq & H). exists q. split; [now right|auto]. }
    cbn [fst snd] in *. apply HO in Hp as (w & Hw). exists w. split; [apply labels_in; eauto|]. rewrite C. now apply entry_unique.
  - intros x y w Hin. apply labels_in in Hin as (r & c & Hin & A & B). assert (In (r, c) ps) as Hp by (apply HO; now exists w).
    clear -F Hp A B. induction F as [|p row ps rows (A' & B' & _) F IH]; [destruct Hp|]. destruct Hp as [->|Hp]; [|right; auto]. left. cbn [fst snd] in *. destruct row as [[a b] v]. cbn in *. congruence.
Qed.
Lemma labels_no_zero (us : list U) (is : list I) m : in_shape m -> c_rows m = length us -> c_cols m = length is -> NoDup (map fst (labels us is m)) ->
  (forall l, In l (labels us is m) -> ~ (snd l == 0)%Q) -> ~ stores_zero m.
Proof.
  intros Hm Er Ec HN H (r & c & (w & Hw) & Z). destruct m as [nr nc ent]. pose proof (labels_nodup us is nr nc ent Hm Er Ec HN) as HE.
  destruct (Hm r c w Hw) as [H1 H2]. cbn [c_rows c_cols] in *. rewrite Er in H1. rewrite Ec in H2. apply nth_error_Some in H1, H2.
  destruct (nth_error us r) as [x|] eqn:E1; [|congruence]. destruct (nth_error is c) as [y|] eqn:E2; [|congruence].
  apply (H (x, y, w)); [apply labels_in; eauto|]. cbn [snd]. rewrite <- Z. symmetry. now apply entry_unique.
Qed.

(** The pair made of one part. *)
Definition part_shape (items : list I) (pd : pair_data U) : Prop :=
  c_rows (pd_train pd) = length (pd_users pd) /\ c_rows (pd_test pd) = length (pd_users pd) /\ c_cols (pd_train pd) = length items /\ c_cols (pd_test pd) = length items /\
  in_shape (pd_train pd) /\ in_shape (pd_test pd).
Lemma part_frames (rated : bool) items (pd : pair_data U) (d : list event) : NoDup (pd_users pd) -> NoDup items -> part_shape items pd -> NoDup (map pair_of d) ->
  Permutation (learn_labels items pd ++ held_labels items pd) (map (label_of (fun e : event => if rated then inject_Z (trunc (ev_r e)) else 1%Q)) d) ->
  (rated = true -> forall e, In e d -> trunc (ev_r e) <> 0%Z) ->
  exists p learn held, make_user_pair (pd_users pd) (pd_train pd) (Some (pd_test pd)) (Some items) = Ok p /\
    df_train p = Ok learn /\ df_test p = Ok held /\ lists_interactions rated (fun e => In e d) learn held.
Proof.
  intros Nu Ni (R1 & R2 & C1 & C2 & S1 & S2) Nd P Hz.
  assert (NL : NoDup (map fst (learn_labels items pd ++ held_labels items pd))).
  { eapply Permutation_NoDup; [symmetry; apply Permutation_map; exact P|]. rewrite map_map. exact Nd. }
  assert (VL : forall l, In l (learn_labels items pd ++ held_labels items pd) -> exists e, In e d /\ l = (ev_u e, ev_i e, if rated then inject_Z (trunc (ev_r e)) else 1%Q)).
  { intros l Hl. apply (Permutation_in _ P) in Hl. apply in_map_iff in Hl as (e & <- & He). exists e. auto. }
  assert (ZL : forall l, In l (learn_labels items pd ++ held_labels items pd) -> ~ (snd l == 0)%Q).
  { intros l Hl. destruct (VL l Hl) as (e & He & ->). cbn [snd]. destruct rated; [|discriminate]. specialize (Hz eq_refl e He). intros E. apply Hz. unfold Qeq in E. cbn in E. lia. }
  rewrite map_app in NL. apply nodup_app_iff in NL as (N1 & N2 & D).
  destruct (proj1 (pair_accepts (pd_users pd) (pd_train pd) (Some (pd_test pd)) (Some items))) as (p & E).
  { split; [congruence|]. split; [split; congruence|congruence]. }
  destruct (proj2 (df_train_frame _ _ _ _ _ S1 E)) as (learn & El & F1).
  { apply (labels_no_zero (pd_users pd) items); auto. intros l Hl. apply ZL. apply in_or_app. now left. }
  destruct (proj2 (df_test_frame _ _ _ _ _ S2 E)) as (held & Eh & F2).
  { apply (labels_no_zero (pd_users pd) items); auto. intros l Hl. apply ZL. apply in_or_app. now right. }
  destruct (frame_labels _ _ _ _ Nu Ni S1 R1 C1 N1 F1) as (A1 & A2 & A3). destruct (frame_labels _ _ _ _ Nu Ni S2 R2 C2 N2 F2) as (B1 & B2 & B3).
  exists p, learn, held. split; auto. split; auto. split; auto.
  assert (V : forall x y v, In (x, y, v) (learn ++ held) -> exists e, In e d /\ ev_u e = x /\ ev_i e = y /\ (v == if rated then inject_Z (trunc (ev_r e)) else 1)%Q).
  { intros x y v Hin. apply in_app_or in Hin as [Hin|Hin]; [apply A2 in Hin as (w & Hw & Ew)|apply B2 in Hin as (w & Hw & Ew)].
    - destruct (VL (x, y, w)) as (e & He & [= -> -> ->]); [apply in_or_app; now left|]. exists e. auto.
    - destruct (VL (x, y, w)) as (e & He & [= -> -> ->]); [apply in_or_app; now right|]. exists e. auto. }
  split; [|split; auto].
  - rewrite map_app. apply nodup_app_iff. split; auto. split; auto. intros [x y] H1 H2. apply in_map_iff in H1 as ([[a b] v] & [= -> ->] & H1), H2 as ([[a b] v'] & [= -> ->] & H2).
    apply A2 in H1 as (w & H1 & _). apply B2 in H2 as (w' & H2 & _). apply (D (x, y)); apply in_map_iff; [exists (x, y, w)|exists (x, y, w')]; auto.
  - intros x y. split.
    + intros H. apply in_map_iff in H as ([[a b] v] & [= -> ->] & H). destruct (V x y v H) as (e & He & Ex & Ey & _). eauto.
    + intros (e & He & <- & <-). rewrite map_app. apply in_or_app.
      assert (In (label_of (fun e : event => if rated then inject_Z (trunc (ev_r e)) else 1%Q) e) (learn_labels items pd ++ held_labels items pd)) as H.
      { eapply Permutation_in; [symmetry; exact P|]. now apply in_map. }
      apply in_app_or in H as [H|H]; [left; eapply A3; exact H|right; eapply B3; exact H].
Qed.

Variable eq_u : forall a b : U, {a = b} + {a <> b}.
Variable eq_i : forall a b : I, {a = b} + {a <> b}.
Variable uniq_u : listing -> list U -> list U.
Variable uniq_i : listing -> list I -> list I.
Variable rnd : Q -> Q.
Variable B : nat.
Hypothesis Hrnd : faithful rnd B.
Variable le : T -> T -> Prop.
Variable sort_time : list event -> list event.
Hypothesis Hor : oracles_ok uniq_u uniq_i le sort_time.
Let Huu := ok_uniq_u _ _ _ _ Hor.
Let Hui := ok_uniq_i _ _ _ _ Hor.
Let Hsort := ok_sort _ _ _ _ Hor.

Lemma part_shape_ok o (d : list event) items held n_held sh pd : NoDup items -> (forall e, In e d -> In (ev_i e) items) -> NoDup (map pair_of d) ->
  row_shuffles sh -> length items <= B -> (o_rated o = true -> Forall (fun e => int64_range (ev_r e)) d) ->
  part_of eq_u eq_i uniq_u uniq_i rnd sort_time o d items held n_held sh = Ok pd -> part_shape items pd.
Proof.
  intros Ni Hi HN Hsh HB HR. unfold part_of. destruct (o_time o).
  - intros E. destruct (userwise_time_ok eq_u eq_i uniq_u uniq_i Huu Hui rnd le sort_time Hsort _ _ _ _ _ _ _ Ni Hi E) as (Er & Hu & R1 & R2 & C1 & C2 & _).
    do 4 (split; auto). revert E. unfold userwise_time. destruct (split_last_n _ _ _ d _ held (o_ceil o)) as [train test]. rewrite Er. set (us := uniq_u BySet (map ev_u d)).
    destruct (df_to_sparse_ok eq_u eq_i uniq_u uniq_i Huu Hui train (Some us) (Some items) false (proj1 (Huu _ _)) Ni) as (e1 & E1 & _ & _ & F1). rewrite E1. clear E1. cbn [obind fst].
    destruct (df_to_sparse_ok eq_u eq_i uniq_u uniq_i Huu Hui test (Some us) (Some items) false (proj1 (Huu _ _)) Ni) as (e2 & E2 & _ & _ & F2). rewrite E2. clear E2. cbn [obind fst].
    unfold make_pair. cbn [c_rows c_cols]. rewrite !Nat.eqb_refl. cbn [negb andb]. intros [= <-]. cbn [pd_train pd_test].
    apply stands_range in F1, F2. rewrite Forall_forall in F1, F2. split; intros r c v Hin; cbn [c_ent c_rows c_cols] in *; [apply (F1 _ Hin)|apply (F2 _ Hin)].
  - intros E. destruct (userwise_random_ok eq_u eq_i uniq_u uniq_i Huu Hui rnd B Hrnd _ _ _ _ _ _ _ _ Ni Hi HN Hsh HB HR E) as (_ & R1 & R2 & C1 & C2 & _).
    do 4 (split; auto). revert E. unfold userwise_random.
    destruct (df_to_sparse_ok eq_u eq_i uniq_u uniq_i Huu Hui d None (Some items) (o_rated o) Logic.I Ni) as (ent & E & Nu & _ & F). rewrite E. clear E. cbn [obind].
    assert (Ek : kept_rows eq_u eq_i d None (Some items) = d).
    { unfold kept_rows. apply filter_id. apply Forall_forall. intros e He. cbn. now apply id_mem_iff, Hi. }
    rewrite Ek in *. set (us := uniq_u BySort (map ev_u d)) in *. set (m := mkCoo (length us) (length items) ent).
    assert (Nent : NoDup (map fst ent)) by (eapply stands_nodup; eauto).
    pose proof (stands_range _ _ _ _ _ F) as Rent.
    set (s := rule_of n_held held (o_ceil o)). destruct (rule_ok s) eqn:Es.
    2:{ unfold rowwise_split, check_arg. rewrite Es. discriminate. }
    destruct (rowwise_rows rnd B s sh (c_cols m) (csr_rows m) Hrnd Es Hsh) as (train & test & E & S1 & S2 & S3 & S4 & _ & HP).
    { apply Forall_forall. intros row Hrow. apply csr_row_length in Hrow. cbn in Hrow. lia. }
    { apply Forall_forall. intros row Hrow. apply Forall_forall. intros e He.
      destruct (csr_rows_values m Nent Rent row e Hrow He) as (t & Ht & <-). destruct (stands_in _ _ _ _ _ t F Ht) as (ev & Hev & _ & _ & ->).
      destruct (o_rated o); [|split; cbn; lia]. specialize (HR eq_refl). rewrite Forall_forall in HR. now apply HR. }
    rewrite E. clear E. cbn [obind fst snd]. rewrite csr_rows_length in S1, S3. unfold make_pair. cbn [c_rows m] in S1, S3.
    destruct (negb _); [discriminate|]. destruct (_ && _); [|discriminate]. intros [= <-]. cbn [pd_train pd_test].
    assert (K : forall r c v, In (r, c, v) (c_ent test) \/ In (r, c, v) (c_ent train) -> r < length us /\ c < length items).
    { intros r c v Hin. assert (In (r, c, v) (filter (of_row r) (c_ent test) ++ filter (of_row r) (c_ent train))) as H.
      { apply in_or_app. destruct Hin as [Hin|Hin]; [left|right]; apply filter_In; (split; [exact Hin|unfold of_row; cbn; apply Nat.eqb_refl]). }
      apply (Permutation_in _ (HP r)) in H. apply in_map_iff in H as ([c' w] & [= -> _] & H). apply (csr_col m r c w) in H. exact H. }
    split; intros r c v Hin; [rewrite S1, S2|rewrite S3, S4]; apply (K r c v); auto.
Qed.

Lemma drop_dup_first (df : list event) : forall seen e, In e (drop_dup eq_u eq_i seen df) -> first_row df e.
Proof.
  induction df as [|x df IH]; intros seen e; [intros []|]. intros Hin. destruct (drop_dup_ok eq_u eq_i (x :: df) seen) as (_ & H2 & _). destruct (H2 e Hin) as [_ Hs]. revert Hin. cbn [drop_dup].
  destruct (existsb _ seen) eqn:E.
  - apply existsb_exists in E as ([a b] & Hab & E). cbn in E. destruct (eq_u a (ev_u x)) as [->|]; [|discriminate]. destruct (eq_i b (ev_i x)) as [->|]; [|discriminate].
    intros Hin. apply IH in Hin as (l & r & -> & H). exists (x :: l), r. split; auto. intros e' [<-|He']; auto. intros [A C]. apply Hs. unfold pair_of. now rewrite <- A, <- C.
  - intros [<-|Hin]; [exists [], df; split; auto; intros e' []|]. destruct (drop_dup_ok eq_u eq_i df ((ev_u x, ev_i x) :: seen)) as (_ & H3 & _). destruct (H3 e Hin) as [_ Hn].
    apply IH in Hin as (l & r & -> & H). exists (x :: l), r. split; auto. intros e' [<-|He']; auto. intros [A C]. apply Hn. left. unfold pair_of. now rewrite A, C.
Qed.
Lemma lists_impl (rated : bool) (d d' : event -> Prop) learn held : (forall e, d e -> d' e) -> (forall e, d' e -> exists e', d e' /\ ev_u e' = ev_u e /\ ev_i e' = ev_i e) ->
  lists_interactions rated d learn held -> lists_interactions rated d' learn held.
Proof.
  intros H1 H2 (A & B0 & C). split; auto. split.
  - intros x y. rewrite B0. split.
    + intros (e & He & E). eauto.
    + intros (e & He & <- & <-). destruct (H2 e He) as (e' & He' & E1 & E2). eauto.
  - intros x y v Hin. destruct (C x y v Hin) as (e & He & E). eauto.
Qed.

Lemma partial_frames df o ch ds : choices_ok ch -> length df <= B -> (o_rated o = true -> Forall (fun e => int64_range (ev_r e) /\ trunc (ev_r e) <> 0%Z) df) ->
  partial_user_holdout eq_u eq_i uniq_u uniq_i rnd sort_time df o ch = Ok ds ->
  exists train val test vl vh xl xh, partial_pairs ds = Ok (train, val, test) /\
    df_train train = Fail RuntimeError /\ df_test train = Fail RuntimeError /\
    df_train val = Ok vl /\ df_test val = Ok vh /\ lists_interactions (o_rated o) (fun e => first_row df e /\ In (ev_u e) (up_users val)) vl vh /\
    df_train test = Ok xl /\ df_test test = Ok xh /\ lists_interactions (o_rated o) (fun e => first_row df e /\ In (ev_u e) (up_users test)) xl xh.
Proof.
  intros Hch HB HRZ E.
  assert (HR : o_rated o = true -> Forall (fun e => int64_range (ev_r e)) df) by (intros Hr; eapply Forall_impl; [|exact (HRZ Hr)]; cbn; tauto).
  apply (partial_inv eq_u eq_i uniq_u uniq_i rnd sort_time) in E as (n_val & n_test & ratio & E). cbv zeta in E. destruct E as (_ & _ & _ & Ei & (tr & Et & Em) & Ev & Ex).
  set (uids := uniq_u ByAppearance (map ev_u df)) in *. set (df' := drop_dup eq_u eq_i [] df) in *. set (items := uniq_i BySet (map ev_i df')) in *.
  set (s1 := split_list (ch_first ch) uids (n_val + n_test)) in *.
  set (vu := if Qle_bool 1 _ then fst _ else _) in *. set (xu := if Qle_bool 1 _ then snd _ else _) in *.
  destruct (drop_dup_ok eq_u eq_i df []) as (D1 & D2 & D3). fold df' in D1, D2, D3.
  assert (Ni : NoDup items) by apply Hui.
  assert (Hlen : length items <= B).
  { transitivity (length df); auto. rewrite <- (map_length ev_i). apply NoDup_incl_length; auto. intros y Hy. apply (proj1 (proj2 (Hui _ _) _)) in Hy. apply in_map_iff in Hy as (e & <- & He). apply in_map. now apply D2. }
  assert (Hsub : forall us e, In e (rows_of eq_u df' us) <-> In e df' /\ In (ev_u e) us).
  { intros us e. unfold rows_of. rewrite filter_In. split; intros [H1 H2]; (split; [exact H1|now apply (id_mem_iff eq_u)]). }
  assert (Hb : forall us e, In e (rows_of eq_u df' us) -> In (ev_i e) items) by (intros us e He; apply Hsub in He as [He _]; apply Hui; now apply in_map).
  assert (Nsub : forall us, NoDup (map pair_of (rows_of eq_u df' us))).
  { intros us. unfold rows_of. clear -D1. induction df' as [|e l IH]; cbn; [constructor|]. inversion D1; subst. destruct (id_mem eq_u (ev_u e) us); auto. cbn. constructor; auto.
    intros Hin. apply in_map_iff in Hin as (e' & Ee & He'). apply filter_In in He' as [He' _]. match goal with Hx : ~ In (pair_of e) _ |- _ => apply Hx end. rewrite <- Ee. now apply in_map. }
  assert (HRs : forall us, o_rated o = true -> Forall (fun e => int64_range (ev_r e)) (rows_of eq_u df' us)).
  { intros us Hr. specialize (HR Hr). rewrite Forall_forall in *. intros e He. apply HR. apply D2. now apply Hsub in He. }
  assert (HZs : forall us, o_rated o = true -> forall e, In e (rows_of eq_u df' us) -> trunc (ev_r e) <> 0%Z).
  { intros us Hr e He. specialize (HRZ Hr). rewrite Forall_forall in HRZ. apply HRZ. apply D2. now apply Hsub in He. }
  assert (PF : forall us held n_held sh pd, row_shuffles sh -> part_of eq_u eq_i uniq_u uniq_i rnd sort_time o (rows_of eq_u df' us) items held n_held sh = Ok pd ->
    exists p learn held', make_user_pair (pd_users pd) (pd_train pd) (Some (pd_test pd)) (Some items) = Ok p /\ df_train p = Ok learn /\ df_test p = Ok held' /\
      lists_interactions (o_rated o) (fun e => first_row df e /\ In (ev_u e) (up_users p)) learn held').
  { intros us held n_held sh pd Hsh Ep. pose proof (part_shape_ok o _ items _ _ _ _ Ni (Hb us) (Nsub us) Hsh Hlen (HRs us) Ep) as Sp.
    destruct (part_ok eq_u eq_i uniq_u uniq_i rnd B Hrnd le sort_time Hor o _ items _ _ _ _ Ni (Hb us) (Nsub us) Hsh Hlen (HRs us) Ep) as (V1 & V2).
    assert (Nu : NoDup (pd_users pd)) by (rewrite V1; apply Huu).
    destruct (part_frames (o_rated o) items pd (rows_of eq_u df' us) Nu Ni Sp (Nsub us) V2 (HZs us)) as (p & l & h & E1 & E2 & E3 & L).
    exists p, l, h. do 3 (split; auto). apply pair_inv in E1 as (_ & Eu & _). rewrite Eu, V1. eapply lists_impl; [| |exact L].
    - intros e He. cbv beta. split; [apply Hsub in He as [He _]; now apply drop_dup_first in He|]. apply Huu. now apply in_map.
    - intros e [He Hu]. apply (proj1 (proj2 (Huu _ _) _)) in Hu. apply in_map_iff in Hu as (e0 & E0 & Hu). apply Hsub in Hu as [_ Hu]. rewrite E0 in Hu.
      assert (In e df) as Hin by (destruct He as (a & b & -> & _); apply in_or_app; right; now left).
      destruct (D3 e Hin) as [[]|Hp]. apply in_map_iff in Hp as (e1 & Ee & He1). injection Ee as A1 A2. exists e1. split; auto. apply Hsub. split; auto. now rewrite A1. }
  destruct (PF vu _ _ _ _ (ok_val _ Hch) Ev) as (val & vl & vh & P1 & P2 & P3 & P4). destruct (PF xu _ _ _ _ (ok_test _ Hch) Ex) as (test & xl & xh & Q1 & Q2 & Q3 & Q4).
  assert (exists train, @make_user_pair U I (pd_users (ds_train ds)) (pd_train (ds_train ds)) None None = Ok train) as (train & Ht).
  { apply pair_accepts. split; [|auto]. clear -Em. revert Em. unfold make_pair. destruct (Nat.eqb_spec (length (fst s1)) (c_rows (fst (fst tr)))); cbn [negb]; [|discriminate]. intros [= <-]. auto. }
  exists train, val, test, vl, vh, xl, xh. split; [unfold partial_pairs; rewrite Ht, Ei; cbn [obind]; rewrite P1; cbn [obind]; rewrite Q1; reflexivity|].
  destruct (df_no_items _ _ _ _ Ht) as [N1 N2]. repeat (split; [assumption|]). assumption.
Qed.
End Frames.
