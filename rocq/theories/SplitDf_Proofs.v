(** Data frames, per-user splits and time splits. *)
From Coq Require Import Lqa.
From Verif Require Import Base Sort_Proofs Rec_Model Rec_Proofs Split_Spec Split_Proofs.
Local Open Scope nat_scope.

(** ** Lists *)
Lemma nodup_flat_map {X Y} (f : X -> list Y) l : NoDup l -> (forall x, In x l -> NoDup (f x)) ->
  (forall x y z, In x l -> In y l -> In z (f x) -> In z (f y) -> x = y) -> NoDup (flat_map f l).
Proof.
  induction l as [|x l IH]; cbn [flat_map]; intros HN H1 H2; [constructor|]. inversion HN as [|? ? Hx HN']; subst.
  assert (G : forall a b : list Y, NoDup a -> NoDup b -> (forall z, In z a -> ~ In z b) -> NoDup (a ++ b)).
  { clear. induction a as [|z a IH]; cbn; intros b Ha Hb Hd; auto. inversion Ha; subst. constructor; [|apply IH; auto].
    intros H. apply in_app_or in H as [H|H]; auto. exact (Hd z (or_introl eq_refl) H). }
  apply G; [apply H1; now left|apply IH; auto; [intros y Hy; apply H1; now right|intros a b z Ha Hb; apply H2; now right]|].
  intros z Hz Hz'. apply in_flat_map in Hz' as (y & Hy & Hzy). apply Hx. rewrite (H2 x y z); auto; [now left|now right].
Qed.
Lemma concat_pairs_perm {X} (G : nat -> list X) (parts : list (list X * list X)) : forall s,
  (forall k, k < length parts -> Permutation (fst (nth k parts ([], [])) ++ snd (nth k parts ([], []))) (G (s + k))) ->
  Permutation (concat (map fst parts) ++ concat (map snd parts)) (flat_map G (seq s (length parts))).
Proof.
  induction parts as [|p parts IH]; intros s H; cbn [map concat length seq flat_map]; [constructor|].
  rewrite <- (IH (S s)).
  2:{ intros k Hk. specialize (H (S k) ltac:(cbn; lia)). cbn [nth] in H. replace (S s + k) with (s + S k) by lia. exact H. }
  specialize (H 0 ltac:(cbn; lia)). cbn [nth] in H. rewrite Nat.add_0_r in H. rewrite <- H.
  rewrite <- !app_assoc. apply Permutation_app_head. rewrite !app_assoc. apply Permutation_app_tail. apply Permutation_app_comm.
Qed.
Lemma filter_split_perm {X} (p : X -> bool) l : Permutation (filter (fun x => negb (p x)) l ++ filter p l) l.
Proof.
  induction l as [|x l IH]; cbn; [constructor|]. destruct (p x); cbn.
  - rewrite <- Permutation_middle. now constructor.
  - now constructor.
Qed.
Lemma nodup_app_iff {X} (a b : list X) : NoDup (a ++ b) <-> NoDup a /\ NoDup b /\ (forall x, In x a -> ~ In x b).
Proof.
  induction a as [|x a IH]; cbn.
  - split; [intros H; repeat split; auto; constructor|tauto].
  - split.
    + intros H. inversion H as [|? ? Hx HN]; subst. apply IH in HN as (Ha & Hb & Hd). repeat split; auto.
      * constructor; auto. intros Hin. apply Hx. apply in_or_app. now left.
      * intros y [->|Hy]; auto. intros Hin. apply Hx. apply in_or_app. now right.
    + intros (Ha & Hb & Hd). inversion Ha; subst. constructor.
      * intros Hin. apply in_app_or in Hin as [Hin|Hin]; auto. exact (Hd x (or_introl eq_refl) Hin).
      * apply IH. repeat split; auto.
Qed.
Lemma same_set_length {X} (a b : list X) : NoDup a -> NoDup b -> (forall x, In x a <-> In x b) -> length a = length b.
Proof. intros Ha Hb H. apply Permutation_length. now apply NoDup_Permutation. Qed.

(** ** Codes and labels *)
Section Codes.
Context {X : Type}.
Variable eq : forall a b : X, {a = b} + {a <> b}.
Lemma id_mem_iff x l : id_mem eq x l = true <-> In x l.
Proof.
  unfold id_mem. rewrite existsb_exists. split.
  - intros (y & Hy & E). destruct (eq x y); [now subst|discriminate].
  - intros H. exists x. split; auto. destruct (eq x x); auto.
Qed.
Lemma distinct_iff l : distinct eq l = true <-> NoDup l.
Proof.
  induction l as [|x l IH]; cbn [distinct]; [split; [constructor|auto]|]. rewrite andb_true_iff, IH, negb_true_iff.
  assert (G : id_mem eq x l = false <-> ~ In x l) by (rewrite <- id_mem_iff; destruct (id_mem eq x l); intuition congruence).
  rewrite G. split; [intros []; now constructor|]. intros H. inversion H; auto.
Qed.
Lemma code_some l x : In x l -> exists k, code eq l x = Some k /\ nth_error l k = Some x.
Proof.
  induction l as [|y l IH]; intros H; [destruct H|]. cbn. destruct (eq x y) as [->|Hn]; [exists 0; auto|].
  destruct H as [->|H]; [contradiction|]. destruct (IH H) as (k & -> & E). exists (S k). auto.
Qed.
Lemma code_none l x : ~ In x l -> code eq l x = None.
Proof.
  induction l as [|y l IH]; intros H; [reflexivity|]. cbn. destruct (eq x y) as [->|Hn]; [exfalso; apply H; now left|].
  rewrite IH; auto. intros G. apply H. now right.
Qed.
End Codes.

Section Labels.
Context {U I : Type}.
Definition lab1 (us : list U) (is : list I) (e : nat * nat * Q) : list (U * I * Q) :=
  match nth_error us (fst (fst e)), nth_error is (snd (fst e)) with Some x, Some y => [(x, y, snd e)] | _, _ => [] end.
Definition lablist (us : list U) (is : list I) (ent : list (nat * nat * Q)) := flat_map (lab1 us is) ent.
Lemma labels_list us is m : labels us is m = lablist us is (c_ent m).
Proof. reflexivity. Qed.
Lemma lablist_app us is a b : lablist us is (a ++ b) = lablist us is a ++ lablist us is b.
Proof. apply flat_map_app. Qed.
Lemma lablist_perm us is a b : Permutation a b -> Permutation (lablist us is a) (lablist us is b).
Proof. apply Permutation_flat_map. Qed.
Definition cut1 (e : nat * nat * Q) : nat * nat * Q := (fst e, inject_Z (trunc (snd e))).
Definition cutl (e : U * I * Q) : U * I * Q := (fst e, inject_Z (trunc (snd e))).
Lemma lablist_cut us is ent : lablist us is (map cut1 ent) = map cutl (lablist us is ent).
Proof.
  induction ent as [|[[r c] v] ent IH]; [reflexivity|]. unfold lablist in *. cbn [map flat_map]. rewrite map_app, IH. f_equal. unfold lab1, cut1. cbn [fst snd].
  destruct (nth_error us r), (nth_error is c); reflexivity.
Qed.
End Labels.

Section Df.
Context {U I T : Type}.
Variable eq_u : forall a b : U, {a = b} + {a <> b}.
Variable eq_i : forall a b : I, {a = b} + {a <> b}.
Variable uniq_u : listing -> list U -> list U.
Variable uniq_i : listing -> list I -> list I.
Hypothesis Huu : lists_distinct uniq_u.
Hypothesis Hui : lists_distinct uniq_i.
Notation event := (event U I T).
Definition pair_of (e : event) : U * I := (ev_u e, ev_i e).
Definition label_of (v : event -> Q) (e : event) : U * I * Q := (ev_u e, ev_i e, v e).

(** A triplet stands for an event. *)
Definition stands (us : list U) (is : list I) (v : event -> Q) (e : event) (t : nat * nat * Q) : Prop :=
  nth_error us (fst (fst t)) = Some (ev_u e) /\ nth_error is (snd (fst t)) = Some (ev_i e) /\ snd t = v e.
Lemma codes_ok us is (v : event -> Q) df : (forall e, In e df -> In (ev_u e) us /\ In (ev_i e) is) ->
  exists ent, oall (map (fun e => match code eq_u us (ev_u e), code eq_i is (ev_i e) with
                                  | Some r, Some c => Ok (r, c, v e) | _, _ => Fail ValueError end) df) = Ok ent /\
    Forall2 (stands us is v) df ent.
Proof.
  induction df as [|e df IH]; intros H; [exists []; split; [reflexivity|constructor]|].
  destruct (H e (or_introl eq_refl)) as [Hu Hi].
  destruct (code_some eq_u us _ Hu) as (r & Er & Nr). destruct (code_some eq_i is _ Hi) as (c & Ec & Nc).
  destruct IH as (ent & E & F); [intros e' He'; apply H; now right|]. exists ((r, c, v e) :: ent). cbn [map oall]. rewrite Er, Ec, E. cbn.
  split; [reflexivity|]. constructor; auto. repeat split; auto.
Qed.
Lemma stands_labels us is v df ent : Forall2 (stands us is v) df ent -> lablist us is ent = map (label_of v) df.
Proof.
  unfold lablist. induction 1 as [|e t df ent (H1 & H2 & H3) _ IH]; [reflexivity|]. cbn [flat_map map]. rewrite IH. unfold lab1. now rewrite H1, H2, H3.
Qed.
Lemma stands_range us is v df ent : Forall2 (stands us is v) df ent -> Forall (fun t => fst (fst t) < length us /\ snd (fst t) < length is) ent.
Proof.
  induction 1 as [|e t df ent (H1 & H2 & _) _ IH]; constructor; auto. split; apply nth_error_Some; congruence.
Qed.
Lemma stands_in us is v df ent t : Forall2 (stands us is v) df ent -> In t ent -> exists e, In e df /\ stands us is v e t.
Proof.
  induction 1 as [|e t' df ent H _ IH]; [intros []|]. intros [->|Hin]; [exists e; split; auto; now left|].
  destruct (IH Hin) as (e' & He & Hs). exists e'. split; auto. now right.
Qed.
Lemma stands_nodup us is v df ent : Forall2 (stands us is v) df ent -> NoDup (map pair_of df) -> NoDup (map fst ent).
Proof.
  induction 1 as [|e t df ent H F IH]; cbn [map]; intros HN; [constructor|]. inversion HN as [|? ? Hx HN']; subst. constructor; auto.
  intros Hin. apply Hx. apply in_map_iff in Hin as (t' & Et & Ht). destruct (stands_in us is v df ent t' F Ht) as (e' & He & H1 & H2 & _).
  destruct H as (H3 & H4 & _). rewrite Et in H1, H2. apply in_map_iff. exists e'. split; auto. unfold pair_of. congruence.
Qed.
Lemma stands_entry us is v df ent nr nc r c : NoDup us -> NoDup is -> Forall2 (stands us is v) df ent ->
  entry (mkCoo nr nc ent) r c =
  match nth_error us r, nth_error is c with
  | Some x, Some y => fold_right Qplus 0%Q (map v (filter (fun e => (if eq_u (ev_u e) x then true else false) && (if eq_i (ev_i e) y then true else false)) df))
  | _, _ => 0%Q
  end.
Proof.
  intros Nu Ni. unfold entry. cbn [c_ent]. induction 1 as [|e t df ent (H1 & H2 & H3) F IH].
  - cbn. now destruct (nth_error us r), (nth_error is c).
  - cbn [filter]. destruct (nth_error us r) as [x|] eqn:Ex, (nth_error is c) as [y|] eqn:Ey.
    + assert (Er : (fst (fst t) =? r) = if eq_u (ev_u e) x then true else false).
      { destruct (eq_u (ev_u e) x) as [E|E]; [apply Nat.eqb_eq|apply Nat.eqb_neq].
        - rewrite NoDup_nth_error in Nu. apply Nu; [apply nth_error_Some; congruence|congruence].
        - intros Heq. congruence. }
      assert (Ec : (snd (fst t) =? c) = if eq_i (ev_i e) y then true else false).
      { destruct (eq_i (ev_i e) y) as [E|E]; [apply Nat.eqb_eq|apply Nat.eqb_neq].
        - rewrite NoDup_nth_error in Ni. apply Ni; [apply nth_error_Some; congruence|congruence].
        - intros Heq. congruence. }
      rewrite Er, Ec. destruct (eq_u (ev_u e) x), (eq_i (ev_i e) y); cbn [andb map fold_right]; rewrite IH; auto. now rewrite H3.
    + destruct (Nat.eqb_spec (snd (fst t)) c) as [Heq|]; [congruence|]. rewrite andb_false_r. exact IH.
    + destruct (Nat.eqb_spec (fst (fst t)) r) as [Heq|]; [congruence|]. exact IH.
    + destruct (Nat.eqb_spec (fst (fst t)) r) as [Heq|]; [congruence|]. exact IH.
Qed.

(** ** df_to_sparse *)
Definition kept_rows (df : list event) (ou : option (list U)) (oi : option (list I)) : list event :=
  filter (fun e => (match ou with Some us => id_mem eq_u (ev_u e) us | None => true end) &&
                   (match oi with Some is => id_mem eq_i (ev_i e) is | None => true end)) df.
Lemma kept_rows_eq df ou oi :
  (let df1 := match ou with Some us => filter (fun e => id_mem eq_u (ev_u e) us) df | None => df end in
   match oi with Some is => filter (fun e => id_mem eq_i (ev_i e) is) df1 | None => df1 end) = kept_rows df ou oi.
Proof.
  unfold kept_rows. rewrite filter_and. destruct ou as [us|], oi as [is|]; cbn; rewrite ?(filter_id (fun _ => true)); auto; apply Forall_forall; auto.
Qed.
Lemma df_to_sparse_ok df ou oi (rated : bool) : (match ou with Some us => NoDup us | None => True end) -> (match oi with Some is => NoDup is | None => True end) ->
  let k := kept_rows df ou oi in
  let us := match ou with Some us => us | None => uniq_u BySort (map ev_u k) end in
  let is := match oi with Some is => is | None => uniq_i BySort (map ev_i k) end in
  let v := fun e : event => if rated then ev_r e else 1%Q in
  exists ent, df_to_sparse eq_u eq_i uniq_u uniq_i df ou oi rated = Ok (mkCoo (length us) (length is) ent, us, is) /\
    NoDup us /\ NoDup is /\ Forall2 (stands us is v) k ent.
Proof.
  intros Hu Hi k us is v. unfold df_to_sparse. pose proof (kept_rows_eq df ou oi) as Ek. cbv zeta in Ek. rewrite Ek. fold k. clear Ek.
  change (match ou with Some us => us | None => uniq_u BySort (map ev_u k) end) with us.
  change (match oi with Some is => is | None => uniq_i BySort (map ev_i k) end) with is.
  assert (Nu : NoDup us) by (unfold us; destruct ou; auto; apply Huu).
  assert (Ni : NoDup is) by (unfold is; destruct oi; auto; apply Hui).
  rewrite (proj2 (distinct_iff eq_u us) Nu), (proj2 (distinct_iff eq_i is) Ni). cbn [negb].
  destruct (codes_ok us is v k) as (ent & E & F).
  { intros e He. unfold k, kept_rows in He. pose proof He as He'. apply filter_In in He as [He1 He2]. apply andb_true_iff in He2 as [Ha Hb].
    split; [unfold us; destruct ou as [us'|]|unfold is; destruct oi as [is'|]].
    - now apply id_mem_iff in Ha.
    - apply Huu. apply in_map. exact He'.
    - now apply id_mem_iff in Hb.
    - apply Hui. apply in_map. exact He'. }
  exists ent. unfold v in E. rewrite E. cbn. auto.
Qed.
Lemma df_to_sparse_dup (df : list event) ou oi rated : (match ou with Some us => ~ NoDup us | None => False end) \/ (match oi with Some is => ~ NoDup is | None => False end) ->
  df_to_sparse eq_u eq_i uniq_u uniq_i df ou oi rated = Fail ValueError.
Proof.
  intros H. unfold df_to_sparse.
  assert (G : forall X (eq : forall a b : X, {a = b} + {a <> b}) l, ~ NoDup l -> distinct eq l = false).
  { intros X eq l Hn. destruct (distinct eq l) eqn:E; auto. apply distinct_iff in E. contradiction. }
  destruct ou as [us|].
  - destruct H as [H|H]; [now rewrite (G _ eq_u us H)|]. destruct oi as [is|]; [|destruct H]. rewrite (G _ eq_i is H). now destruct (negb (distinct eq_u us)).
  - destruct H as [[]|H]. destruct oi as [is|]; [|destruct H]. rewrite (G _ eq_i is H). now destruct (negb _).
Qed.

(** ** Random per-user split *)
Definition flat_rows (rows : list (list (nat * Q))) : list (nat * nat * Q) :=
  flat_map (fun r => map (fun e => (r, fst e, snd e)) (nth r rows [])) (seq 0 (length rows)).
Lemma qplus_0_r_eq (v : Q) : (v + 0)%Q = v.
Proof. destruct v as [a b]. unfold Qplus. cbn. rewrite Pos.mul_1_r. f_equal. ring. Qed.
Lemma entry_unique m r c v : NoDup (map fst (c_ent m)) -> In (r, c, v) (c_ent m) -> entry m r c = v.
Proof.
  intros HN Hin. unfold entry. induction (c_ent m) as [|[[r' c'] v'] l IH]; [destruct Hin|]. cbn [map fst] in HN. inversion HN as [|? ? Hx HN']; subst.
  assert (G : forall l0 : list (nat * nat * Q), ~ In (r, c) (map fst l0) -> filter (fun e => (fst (fst e) =? r) && (snd (fst e) =? c)) l0 = []).
  { intros l0 H0. apply filter_none. apply Forall_forall. intros [[a b] w] He. cbn. destruct (Nat.eqb_spec a r), (Nat.eqb_spec b c); auto. subst. exfalso. apply H0. apply in_map_iff. exists (r, c, w). auto. }
  cbn [filter fst snd]. destruct Hin as [E|Hin].
  - injection E as -> -> ->. rewrite !Nat.eqb_refl. cbn [andb]. rewrite (G l Hx). cbn. apply qplus_0_r_eq.
  - destruct (Nat.eqb_spec r' r), (Nat.eqb_spec c' c); cbn [andb]; auto. subst. exfalso. apply Hx. apply in_map_iff. exists (r, c, v). auto.
Qed.
Lemma nth_map_seq {X} (f : nat -> X) n r d : r < n -> nth r (map f (seq 0 n)) d = f r.
Proof. intros H. rewrite (nth_indep _ d (f 0)) by (now rewrite map_length, seq_length). rewrite map_nth, seq_nth; auto. Qed.
Lemma csr_flat m : NoDup (map fst (c_ent m)) -> Forall (fun t => fst (fst t) < c_rows m /\ snd (fst t) < c_cols m) (c_ent m) ->
  Permutation (flat_rows (csr_rows m)) (c_ent m).
Proof.
  intros HN HR. set (has := fun r c => existsb (fun e => (fst (fst e) =? r) && (snd (fst e) =? c)) (c_ent m)).
  assert (Hhas : forall r c, has r c = true <-> exists v, In (r, c, v) (c_ent m)).
  { intros r c. unfold has. rewrite existsb_exists. split.
    - intros ([[a b] v] & Hin & E). cbn in E. apply andb_true_iff in E as [E1 E2]. apply Nat.eqb_eq in E1, E2. subst. eauto.
    - intros (v & Hin). exists (r, c, v). split; auto. cbn. now rewrite !Nat.eqb_refl. }
  assert (Ef : flat_rows (csr_rows m) = flat_map (fun r => map (fun c => (r, c, entry m r c)) (filter (has r) (seq 0 (c_cols m)))) (seq 0 (c_rows m))).
  { unfold flat_rows, csr_rows at 2. rewrite map_length, seq_length. apply flat_map_ext_in || idtac.
    rewrite !flat_map_concat_map. f_equal. apply map_ext_in. intros r Hr. apply in_seq in Hr. unfold csr_rows. rewrite nth_map_seq by lia. rewrite map_map. reflexivity. }
  rewrite Ef. apply NoDup_Permutation.
  - apply nodup_flat_map; [apply seq_NoDup| |].
    + intros r _. apply FinFun.Injective_map_NoDup; [|apply NoDup_filter, seq_NoDup]. intros c c' E. congruence.
    + intros r r' z _ _ H1 H2. apply in_map_iff in H1 as (? & <- & _). apply in_map_iff in H2 as (? & E & _). congruence.
  - exact (NoDup_map_inv _ _ HN).
  - intros [[r c] v]. rewrite in_flat_map. split.
    + intros (r' & Hr & Hin). apply in_map_iff in Hin as (c' & E & Hc). injection E as -> -> E3. apply filter_In in Hc as [Hc Hh]. apply Hhas in Hh as (w & Hw).
      rewrite (entry_unique m r c w HN Hw) in E3. now subst.
    + intros Hin. rewrite Forall_forall in HR. destruct (HR _ Hin) as [H1 H2]. cbn in H1, H2. exists r. split; [apply in_seq; lia|].
      apply in_map_iff. exists c. split; [now rewrite (entry_unique m r c v HN Hin)|]. apply filter_In. split; [apply in_seq; lia|]. apply Hhas. eauto.
Qed.
Lemma csr_rows_values m : NoDup (map fst (c_ent m)) -> Forall (fun t => fst (fst t) < c_rows m /\ snd (fst t) < c_cols m) (c_ent m) ->
  forall row e, In row (csr_rows m) -> In e row -> exists t, In t (c_ent m) /\ snd t = snd e.
Proof.
  intros HN HR row e Hrow He. pose proof (csr_flat m HN HR) as HP. destruct (In_nth _ _ [] Hrow) as (r & Hr & Er).
  exists (r, fst e, snd e). split; auto. eapply Permutation_in; [exact HP|]. unfold flat_rows. apply in_flat_map. exists r. split; [apply in_seq; lia|].
  rewrite Er. apply in_map_iff. exists e. auto.
Qed.
Lemma csr_row_length m row : In row (csr_rows m) -> length row <= c_cols m.
Proof.
  unfold csr_rows. intros H. apply in_map_iff in H as (r & <- & _). rewrite map_length. etransitivity; [apply filter_le|]. now rewrite seq_length.
Qed.
Lemma csr_rows_length m : length (csr_rows m) = c_rows m.
Proof. unfold csr_rows. now rewrite map_length, seq_length. Qed.

Variable rnd : Q -> Q.
Variable B : nat.
Hypothesis Hrnd : faithful rnd B.
Definition value_of (rated : bool) (e : event) : Q := if rated then ev_r e else 1%Q.
Lemma userwise_random_ok (df : list event) items n ratio ceil rated sh pd : NoDup items -> (forall e, In e df -> In (ev_i e) items) -> NoDup (map pair_of df) ->
  row_shuffles sh -> length items <= B -> (rated = true -> Forall (fun e => int64_range (ev_r e)) df) ->
  userwise_random eq_u eq_i uniq_u uniq_i rnd df items n ratio ceil rated sh = Ok pd ->
  pd_users pd = uniq_u BySort (map ev_u df) /\ c_rows (pd_train pd) = length (pd_users pd) /\ c_rows (pd_test pd) = length (pd_users pd) /\
  c_cols (pd_train pd) = length items /\ c_cols (pd_test pd) = length items /\
  Permutation (held_labels items pd ++ learn_labels items pd) (map (label_of (fun e => inject_Z (trunc (value_of rated e)))) df).
Proof.
  intros Ni Hi HN Hsh HB HR. unfold userwise_random.
  destruct (df_to_sparse_ok df None (Some items) rated Logic.I Ni) as (ent & E & Nu & _ & F). rewrite E. clear E. cbn [obind].
  assert (Ek : kept_rows df None (Some items) = df).
  { unfold kept_rows. apply filter_id. apply Forall_forall. intros e He. cbn. now apply id_mem_iff, Hi. }
  rewrite Ek in *. set (us := uniq_u BySort (map ev_u df)) in *. set (m := mkCoo (length us) (length items) ent).
  assert (Nent : NoDup (map fst ent)) by (eapply stands_nodup; eauto).
  pose proof (stands_range _ _ _ _ _ F) as Rent.
  set (s := rule_of n ratio ceil). destruct (rule_ok s) eqn:Es.
  2:{ unfold rowwise_split, check_arg. rewrite Es. discriminate. }
  destruct (rowwise_ok rnd B s sh (c_cols m) (csr_rows m) Hrnd Es Hsh) as (parts & E & HL & HP).
  { apply Forall_forall. intros row Hrow. apply csr_row_length in Hrow. cbn in Hrow. lia. }
  { apply Forall_forall. intros row Hrow. apply Forall_forall. intros e He.
    destruct (csr_rows_values m Nent Rent row e Hrow He) as (t & Ht & <-). destruct (stands_in _ _ _ _ _ t F Ht) as (ev & Hev & _ & _ & ->).
    destruct rated; [|split; cbn; lia]. specialize (HR eq_refl). rewrite Forall_forall in HR. now apply HR. }
  rewrite E. clear E. cbn [obind fst snd]. unfold make_pair. cbn [c_rows c_cols]. rewrite csr_rows_length. cbn [c_rows c_cols m]. rewrite !Nat.eqb_refl. cbn [negb andb].
  intros [= <-]. unfold held_labels, learn_labels. cbn [pd_users pd_train pd_test c_rows c_cols]. do 5 (split; [reflexivity|]).
  rewrite !labels_list. cbn [c_ent]. rewrite <- lablist_app.
  rewrite (lablist_perm us items _ (map cut1 ent)).
  - rewrite lablist_cut, (stands_labels _ _ _ _ _ F), map_map. reflexivity.
  - rewrite (concat_pairs_perm (fun r => map (conv r) (nth r (csr_rows m) [])) parts 0).
    2:{ intros k Hk. apply HP. lia. }
    rewrite HL. transitivity (map cut1 (flat_rows (csr_rows m))).
    + unfold flat_rows. rewrite !flat_map_concat_map, concat_map, map_map. match goal with |- Permutation ?a ?b => replace a with b; [reflexivity|] end. f_equal. apply map_ext. intros r. rewrite map_map. reflexivity.
    + apply Permutation_map. apply (csr_flat m); auto.
Qed.

(** ** Time split *)
Variable le : T -> T -> Prop.
Variable sort_time : list event -> list event.
Hypothesis Hsort : sorts_time le sort_time.
Definition user_is (u : U) (e : event) : bool := if eq_u (ev_u e) u then true else false.
Lemma with_rank_fst (s : list event) : map fst (with_rank eq_u s) = s.
Proof. induction s as [|e s IH]; cbn; [reflexivity|]. now rewrite IH. Qed.
Lemma same_user_is (e e' : event) : same_user eq_u e e' = user_is (ev_u e) e'.
Proof. unfold same_user, user_is. destruct (eq_u (ev_u e) (ev_u e')) as [E|E], (eq_u (ev_u e') (ev_u e)) as [E'|E']; auto; exfalso; auto. Qed.
Lemma filter_same (e : event) s : filter (same_user eq_u e) s = filter (user_is (ev_u e)) s.
Proof. apply filter_ext. apply same_user_is. Qed.
Lemma with_rank_user u (s : list event) : map snd (filter (fun p => user_is u (fst p)) (with_rank eq_u s)) = rev (seq 0 (length (filter (user_is u) s))).
Proof.
  induction s as [|e s IH]; cbn [with_rank filter]; [reflexivity|]. cbn [fst]. destruct (user_is u e) eqn:E; auto. cbn [map snd length].
  rewrite seq_S, rev_app_distr. cbn [rev app]. rewrite IH, filter_same. unfold user_is in E. destruct (eq_u (ev_u e) u); [|discriminate]. now subst.
Qed.
Lemma with_rank_in p (s : list event) : In p (with_rank eq_u s) -> snd p < length (filter (user_is (ev_u (fst p))) s).
Proof.
  intros H. assert (G : In (snd p) (map snd (filter (fun q => user_is (ev_u (fst p)) (fst q)) (with_rank eq_u s)))).
  { apply in_map. apply filter_In. split; auto. unfold user_is. destruct (eq_u _ _); auto. }
  rewrite with_rank_user in G. apply in_rev, in_seq in G. lia.
Qed.
Lemma with_rank_sorted (s : list event) : StronglySorted (fun a b => ev_u a = ev_u b -> le (ev_t a) (ev_t b)) s ->
  StronglySorted (fun p q => ev_u (fst p) = ev_u (fst q) -> le (ev_t (fst p)) (ev_t (fst q)) /\ snd q < snd p) (with_rank eq_u s).
Proof.
  induction 1 as [|e s HS IH HF]; cbn [with_rank]; constructor; auto. apply Forall_forall. intros q Hq. cbn [fst snd]. intros Eu.
  rewrite Forall_forall in HF. split.
  - apply HF; auto. rewrite <- (with_rank_fst s). now apply in_map.
  - rewrite filter_same, Eu. now apply with_rank_in.
Qed.
Lemma sorted_pair {X} (R : X -> X -> Prop) l a b : StronglySorted R l -> In a l -> In b l -> a = b \/ R a b \/ R b a.
Proof.
  induction 1 as [|x l HS IH HF]; [intros []|]. rewrite Forall_forall in HF. intros [->|Ha] [->|Hb]; auto.
Qed.
(** The number of held out rows of a user with [N] rows. *)
Definition n_held_of (n_heldout : option Z) (ratio : Q) (ceil : bool) (N : nat) : Z :=
  match n_heldout with
  | Some n => n
  | None => let x := rnd (inject_Z (Z.of_nat N) * ratio)%Q in if ceil then Qceiling x else Qfloor x
  end.
Lemma is_heldout_rank (s : list event) n ratio ceil p : is_heldout eq_u rnd s n ratio ceil p = (Z.of_nat (snd p) <? n_held_of n ratio ceil (length (filter (user_is (ev_u (fst p))) s)))%Z.
Proof. unfold is_heldout, n_held_of. destruct n; auto. rewrite filter_same. reflexivity. Qed.
Lemma filter_seq_lt n k : length (filter (fun i => (Z.of_nat i <? k)%Z) (seq 0 n)) = min n (Z.to_nat k).
Proof.
  induction n as [|n IH]; [reflexivity|]. rewrite seq_S, filter_app, app_length, IH. cbn [filter Nat.add].
  destruct (Z.ltb_spec (Z.of_nat n) k); cbn [length]; lia.
Qed.
Lemma map_snd_count (p : nat -> bool) (l : list (event * nat)) : length (filter (fun q => p (snd q)) l) = length (filter p (map snd l)).
Proof. induction l as [|q l IH]; cbn; auto. destruct (p (snd q)); cbn; now rewrite IH. Qed.
Lemma filter_map_fst (p : event -> bool) (l : list (event * nat)) : filter p (map fst l) = map fst (filter (fun q => p (fst q)) l).
Proof. induction l as [|q l IH]; cbn; auto. destruct (p (fst q)); cbn; now rewrite IH. Qed.
Lemma filter_filter_comm {X} (p q : X -> bool) l : filter p (filter q l) = filter q (filter p l).
Proof. rewrite <- !filter_and. apply filter_ext. intros. apply andb_comm. Qed.
Lemma filter_ext_in' {X} (p q : X -> bool) l : (forall x, In x l -> p x = q x) -> filter p l = filter q l.
Proof. induction l as [|x l IH]; cbn; intros H; auto. rewrite (H x), IH; auto. Qed.
Lemma split_last_ok df n ratio ceil train test : split_last_n eq_u rnd sort_time df n ratio ceil = (train, test) ->
  Permutation (train ++ test) df /\
  (forall a b, In a train -> In b test -> ev_u a = ev_u b -> le (ev_t a) (ev_t b)) /\
  (forall u, let N := length (filter (user_is u) df) in length (filter (user_is u) test) = min N (Z.to_nat (n_held_of n ratio ceil N))).
Proof.
  unfold split_last_n. intros [= <- <-]. destruct (Hsort df) as [HP HS]. set (s := sort_time df) in *. set (h := is_heldout eq_u rnd s n ratio ceil). split; [|split].
  - rewrite <- map_app. rewrite (Permutation_map fst (filter_split_perm h (with_rank eq_u s))). now rewrite with_rank_fst.
  - intros a b Ha Hb Eu. apply in_map_iff in Ha as (p & <- & Hp). apply in_map_iff in Hb as (q & <- & Hq).
    apply filter_In in Hp as [Hp Hp1]. apply filter_In in Hq as [Hq Hq1]. apply negb_true_iff in Hp1. unfold h in *. rewrite is_heldout_rank in Hp1, Hq1.
    rewrite <- Eu in Hq1. apply Z.ltb_ge in Hp1. apply Z.ltb_lt in Hq1.
    destruct (sorted_pair _ _ p q (with_rank_sorted s HS) Hp Hq) as [->|[H|H]]; [lia|now apply H|]. symmetry in Eu. specialize (H Eu). lia.
  - intros u. set (N := length (filter (user_is u) df)). rewrite filter_map_fst, map_length, filter_filter_comm.
    assert (EN : N = length (filter (user_is u) s)) by (apply Permutation_length, filter_perm; now symmetry).
    rewrite (filter_ext_in' h (fun p => (Z.of_nat (snd p) <? n_held_of n ratio ceil N)%Z)).
    + rewrite (map_snd_count (fun i => (Z.of_nat i <? n_held_of n ratio ceil N)%Z)), with_rank_user, <- EN.
      rewrite <- (filter_seq_lt N). apply Permutation_length, filter_perm. symmetry. apply Permutation_rev.
    + intros p Hp. apply filter_In in Hp as [_ Hp]. unfold h. rewrite is_heldout_rank. unfold user_is in Hp. destruct (eq_u (ev_u (fst p)) u) as [->|]; [|discriminate]. now rewrite <- EN.
Qed.
Lemma userwise_time_ok (df : list event) items n ratio ceil rated pd : NoDup items -> (forall e, In e df -> In (ev_i e) items) ->
  userwise_time eq_u eq_i uniq_u uniq_i rnd sort_time df items n ratio ceil rated = Ok pd ->
  rated = false /\ pd_users pd = uniq_u BySet (map ev_u df) /\ c_rows (pd_train pd) = length (pd_users pd) /\ c_rows (pd_test pd) = length (pd_users pd) /\
  c_cols (pd_train pd) = length items /\ c_cols (pd_test pd) = length items /\
  exists train test, split_last_n eq_u rnd sort_time df (option_map Z.of_nat n) ratio ceil = (train, test) /\
    learn_labels items pd = map (label_of (fun _ => 1%Q)) train /\ held_labels items pd = map (label_of (fun _ => 1%Q)) test.
Proof.
  intros Ni Hi. unfold userwise_time. destruct (split_last_n _ _ _ df _ ratio ceil) as [train test] eqn:Es. destruct rated; [discriminate|].
  set (us := uniq_u BySet (map ev_u df)). destruct (split_last_ok _ _ _ _ _ _ Es) as [HP _].
  assert (K : forall part, (forall e, In e part -> In e df) -> kept_rows part (Some us) (Some items) = part).
  { intros part Hp. unfold kept_rows. apply filter_id. apply Forall_forall. intros e He. apply andb_true_iff. split; apply id_mem_iff.
    - apply Huu. apply in_map. auto.
    - apply Hi. auto. }
  destruct (df_to_sparse_ok train (Some us) (Some items) false (proj1 (Huu _ _)) Ni) as (e1 & E1 & _ & _ & F1). rewrite E1. clear E1. cbn [obind fst].
  destruct (df_to_sparse_ok test (Some us) (Some items) false (proj1 (Huu _ _)) Ni) as (e2 & E2 & _ & _ & F2). rewrite E2. clear E2. cbn [obind fst].
  rewrite K in F1 by (intros e He; eapply Permutation_in; [exact HP|]; apply in_or_app; auto).
  rewrite K in F2 by (intros e He; eapply Permutation_in; [exact HP|]; apply in_or_app; auto).
  unfold make_pair. cbn [c_rows c_cols]. rewrite !Nat.eqb_refl. cbn [negb andb]. intros [= <-]. cbn [pd_users pd_train pd_test c_rows c_cols].
  do 6 (split; [reflexivity|]). exists train, test. split; [reflexivity|]. unfold learn_labels, held_labels. cbn [pd_users pd_train pd_test]. rewrite !labels_list. cbn [c_ent].
  split; [exact (stands_labels _ _ _ _ _ F1)|exact (stands_labels _ _ _ _ _ F2)].
Qed.
Lemma userwise_time_total (df : list event) items n ratio ceil : NoDup items -> (forall e, In e df -> In (ev_i e) items) ->
  exists pd, userwise_time eq_u eq_i uniq_u uniq_i rnd sort_time df items n ratio ceil false = Ok pd.
Proof.
  intros Ni Hi. unfold userwise_time. destruct (split_last_n _ _ _ df _ ratio ceil) as [train test] eqn:Es.
  set (us := uniq_u BySet (map ev_u df)).
  destruct (df_to_sparse_ok train (Some us) (Some items) false (proj1 (Huu _ _)) Ni) as (e1 & E1 & _). rewrite E1. cbn [obind fst].
  destruct (df_to_sparse_ok test (Some us) (Some items) false (proj1 (Huu _ _)) Ni) as (e2 & E2 & _). rewrite E2. cbn [obind fst].
  unfold make_pair. cbn [c_rows c_cols]. rewrite !Nat.eqb_refl. cbn. eauto.
Qed.
End Df.
