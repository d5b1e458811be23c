(** Proofs about user pairs (C69). *)
From Coq Require Import Sorted.
From Verif Require Import Base Sort_Proofs Rec_Model Rec_Proofs Split_Proofs SplitDf_Proofs SplitTop_Proofs SplitTotal_Proofs Pair_Spec.
Local Open Scope nat_scope.

(** ** Positions and entries *)
Lemma position_trans a b c : position_lt a b -> position_lt b c -> position_lt a c.
Proof. unfold position_lt. lia. Qed.
Lemma sorted_nodup ps : StronglySorted position_lt ps -> NoDup ps.
Proof.
  induction 1 as [|p ps HS IH HF]; constructor; auto. intros Hin. rewrite Forall_forall in HF. specialize (HF p Hin). unfold position_lt in HF. lia.
Qed.
Lemma sorted_app ps qs : StronglySorted position_lt ps -> StronglySorted position_lt qs -> (forall p q, In p ps -> In q qs -> position_lt p q) ->
  StronglySorted position_lt (ps ++ qs).
Proof.
  induction 1 as [|p ps HS IH HF]; intros Hq H; cbn [app]; auto. constructor.
  - apply IH; auto. intros a b Ha Hb. apply H; auto. now right.
  - apply Forall_app. split; auto. apply Forall_forall. intros q Hin. apply H; auto. now left.
Qed.
(** A table of optional values, row by row. *)
Definition grid (f : nat -> nat -> option Q) (m n : nat) : list (nat * nat * Q) :=
  flat_map (fun r => flat_map (fun c => match f r c with Some v => [(r, c, v)] | None => [] end) (seq 0 n)) (seq 0 m).
Lemma grid_in f m n r c v : In (r, c, v) (grid f m n) <-> r < m /\ c < n /\ f r c = Some v.
Proof.
  unfold grid. rewrite in_flat_map. split.
  - intros (r' & Hr & H). apply in_flat_map in H as (c' & Hc & H). apply in_seq in Hr, Hc. destruct (f r' c') as [w|] eqn:E; [|destruct H].
    destruct H as [[= -> -> ->]|[]]. split; [lia|]. split; [lia|]. exact E.
  - intros (Hr & Hc & E). exists r. split; [apply in_seq; lia|]. apply in_flat_map. exists c. split; [apply in_seq; lia|]. rewrite E. now left.
Qed.
Lemma row_sorted (f : nat -> option Q) r n : forall s, StronglySorted position_lt (map fst (flat_map (fun c => match f c with Some v => [(r, c, v)] | None => [] end) (seq s n))) /\
  forall p, In p (map fst (flat_map (fun c => match f c with Some v => [(r, c, v)] | None => [] end) (seq s n))) -> fst p = r /\ s <= snd p.
Proof.
  induction n as [|n IH]; intros s; cbn [seq flat_map map]; [split; [constructor|intros p []]|]. destruct (IH (S s)) as [H1 H2].
  destruct (f s) as [v|]; cbn [app map fst].
  - split.
    + constructor; auto. apply Forall_forall. intros p Hp. apply H2 in Hp. unfold position_lt. cbn. lia.
    + intros p [<-|Hp]; [cbn; lia|]. apply H2 in Hp. lia.
  - split; auto. intros p Hp. apply H2 in Hp. lia.
Qed.
Lemma grid_sorted f m n : StronglySorted position_lt (map fst (grid f m n)).
Proof.
  unfold grid. assert (G : forall k s, StronglySorted position_lt (map fst (flat_map (fun r => flat_map (fun c => match f r c with Some v => [(r, c, v)] | None => [] end) (seq 0 n)) (seq s k))) /\
    forall p, In p (map fst (flat_map (fun r => flat_map (fun c => match f r c with Some v => [(r, c, v)] | None => [] end) (seq 0 n)) (seq s k))) -> s <= fst p).
  { induction k as [|k IH]; intros s; cbn [seq flat_map map]; [split; [constructor|intros p []]|]. destruct (IH (S s)) as [H1 H2], (row_sorted (f s) s n 0) as [R1 R2].
    rewrite map_app. split.
    - apply sorted_app; auto. intros p q Hp Hq. apply R2 in Hp. apply H2 in Hq. unfold position_lt. lia.
    - intros p Hp. apply in_app_or in Hp as [Hp|Hp]; [apply R2 in Hp; lia|apply H2 in Hp; lia]. }
  apply G.
Qed.
Lemma entry_free m r c : ~ occupied m r c -> entry m r c = 0%Q.
Proof.
  intros H. unfold entry. rewrite filter_none; [reflexivity|]. apply Forall_forall. intros [[a b] v] Hin. cbn [fst snd].
  destruct (Nat.eqb_spec a r), (Nat.eqb_spec b c); auto. subst. exfalso. apply H. now exists v.
Qed.
Lemma entry_unique rows cols ent r c v : NoDup (map fst ent) -> In (r, c, v) ent -> (entry (mkCoo rows cols ent) r c == v)%Q.
Proof.
  unfold entry. cbn [c_ent]. induction ent as [|[[a b] w] ent IH]; intros HN Hin; [destruct Hin|]. cbn [map fst] in HN. inversion HN as [|? ? Hx HN' E]; subst.
  cbn [filter fst snd]. destruct Hin as [[= -> -> ->]|Hin].
  - rewrite !Nat.eqb_refl. cbn [andb map fold_right snd]. rewrite filter_none; [cbn [map fold_right]; ring|]. apply Forall_forall. intros [[a b] w] Hin. cbn [fst snd].
    destruct (Nat.eqb_spec a r), (Nat.eqb_spec b c); auto. subst. exfalso. apply Hx. apply in_map_iff. exists (r, c, w). auto.
  - destruct (Nat.eqb_spec a r), (Nat.eqb_spec b c); cbn [andb]; auto. subst. exfalso. apply Hx. apply in_map_iff. exists (r, c, v). auto.
Qed.
Lemma occupied_dec m r c : {occupied m r c} + {~ occupied m r c}.
Proof.
  destruct (existsb (fun e => (fst (fst e) =? r) && (snd (fst e) =? c)) (c_ent m)) eqn:E.
  - left. apply existsb_exists in E as ([[a b] v] & Hin & E). cbn in E. apply andb_true_iff in E as [E1 E2]. apply Nat.eqb_eq in E1, E2. subst. now exists v.
  - right. intros (v & Hin). assert (existsb (fun e : nat * nat * Q => (fst (fst e) =? r) && (snd (fst e) =? c)) (c_ent m) = true); [|congruence].
    apply existsb_exists. exists (r, c, v). split; auto. cbn. now rewrite !Nat.eqb_refl.
Qed.

(** ** Stored entries *)
Lemma combine_map_self {X Y} (f : X -> Y) l : combine l (map f l) = map (fun x => (x, f x)) l.
Proof. induction l as [|x l IH]; cbn; auto. now rewrite IH. Qed.
Definition stored_at (m : coo) (r c : nat) : option Q :=
  if existsb (fun e => (fst (fst e) =? r) && (snd (fst e) =? c)) (c_ent m) then Some (entry m r c) else None.
Lemma stored_grid m : stored m = grid (stored_at m) (c_rows m) (c_cols m).
Proof.
  unfold stored, csr_rows, grid. rewrite combine_map_self, !flat_map_concat_map, map_map. f_equal. apply map_ext. intros r. cbn [fst snd]. rewrite map_map. cbn [fst snd].
  unfold stored_at. induction (seq 0 (c_cols m)) as [|c l IH]; cbn [filter map flat_map]; auto.
  destruct (existsb _ _); cbn [map app]; now rewrite IH.
Qed.
Lemma stored_at_iff m r c v : stored_at m r c = Some v <-> occupied m r c /\ v = entry m r c.
Proof.
  unfold stored_at. destruct (existsb _ _) eqn:E.
  - apply existsb_exists in E as ([[a b] w] & Hin & E). cbn in E. apply andb_true_iff in E as [E1 E2]. apply Nat.eqb_eq in E1, E2. subst. split; [intros [= <-]; split; [now exists w|auto]|]. intros [_ ->]. auto.
  - split; [discriminate|]. intros [(w & Hin) _]. assert (existsb (fun e : nat * nat * Q => (fst (fst e) =? r) && (snd (fst e) =? c)) (c_ent m) = true); [|congruence].
    apply existsb_exists. exists (r, c, w). split; auto. cbn. now rewrite !Nat.eqb_refl.
Qed.
Lemma stored_in m r c v : in_shape m -> In (r, c, v) (stored m) <-> occupied m r c /\ v = entry m r c.
Proof.
  intros H. rewrite stored_grid, grid_in, stored_at_iff. split; [tauto|]. intros [[w Hw] ->]. destruct (H r c w Hw). split; auto. split; auto. split; auto. now exists w.
Qed.

(** ** Frames *)
Section Pair.
Context {U I : Type}.
Definition ids_of (us : list U) (is : list I) (t : nat * nat * Q) : outcome (U * I) :=
  obind (of_option (nth_error us (fst (fst t)))) (fun u => omap (fun i => (u, i)) (of_option (nth_error is (snd (fst t))))).
Lemma ids_ok us is (l : list (nat * nat * Q)) : (forall t, In t l -> fst (fst t) < length us /\ snd (fst t) < length is) ->
  exists ids, oall (map (ids_of us is) l) = Ok ids /\ Forall2 (fun t p => nth_error us (fst (fst t)) = Some (fst p) /\ nth_error is (snd (fst t)) = Some (snd p)) l ids.
Proof.
  induction l as [|t l IH]; intros H; [exists []; split; [reflexivity|constructor]|]. destruct IH as (ids & E & F); [intros t' Ht; apply H; now right|].
  destruct (H t (or_introl eq_refl)) as [H1 H2]. apply nth_error_Some in H1, H2. cbn [map]. unfold ids_of at 1.
  destruct (nth_error us (fst (fst t))) as [u|] eqn:Eu; [|congruence]. destruct (nth_error is (snd (fst t))) as [i|] eqn:Ei; [|congruence].
  cbn [of_option obind omap]. exists ((u, i) :: ids). split; [cbn; cbn in E; now rewrite E|]. constructor; auto.
Qed.
Lemma filter_all_or {X} (f : X -> bool) l : (length (filter f l) = length l /\ filter f l = l) \/ (length (filter f l) <> length l /\ exists x, In x l /\ f x = false).
Proof.
  induction l as [|x l IH]; [left; auto|]. cbn [filter]. destruct (f x) eqn:E.
  - cbn [length]. destruct IH as [[H1 H2]|[H1 (y & Hy & Ey)]]; [left; split; [lia|now rewrite H2]|]. right. split; [lia|]. exists y. split; auto. now right.
  - right. split; [|exists x; split; auto; now left]. pose proof (filter_le f l). cbn [length]. lia.
Qed.
Lemma x_to_df_none (p : user_pair U I) m : up_items p = None -> x_to_df p m = Fail RuntimeError.
Proof. intros E. unfold x_to_df. now rewrite E. Qed.
Lemma x_to_df_some (p : user_pair U I) m is : up_items p = Some is -> in_shape m -> length (up_users p) = c_rows m -> length is = c_cols m ->
  (stores_zero m -> x_to_df p m = Fail ValueError) /\
  (~ stores_zero m -> exists rows, x_to_df p m = Ok rows /\ frame_of (up_users p) is m rows).
Proof.
  intros Ei Hm Hu Hi. unfold x_to_df. rewrite Ei. fold (ids_of (up_users p) is). set (nz := filter _ (stored m)).
  assert (Hr : forall t, In t nz -> fst (fst t) < length (up_users p) /\ snd (fst t) < length is).
  { intros [[r c] v] Ht. apply filter_In in Ht as [Ht _]. apply (stored_in m r c v Hm) in Ht as [(w & Hw) _]. cbn. rewrite Hu, Hi. eauto. }
  destruct (ids_ok (up_users p) is nz Hr) as (ids & E & F).
  match goal with |- context [oall (map ?f nz)] => change (oall (map f nz)) with (oall (map (ids_of (up_users p) is) nz)) end. rewrite E. cbn [obind].
  destruct (filter_all_or (fun t : nat * nat * Q => negb (Qeq_bool (snd t) 0)) (stored m)) as [[H1 H2]|[H1 (t & Ht & Et)]].
  - fold nz in H1, H2. rewrite H1, Nat.eqb_refl. cbn [negb]. split.
    + intros (r & c & Ho & Z). exfalso. assert (In (r, c, entry m r c) nz) as Hin by (rewrite H2; apply stored_in; auto).
      apply filter_In in Hin as [_ Hin]. cbn in Hin. apply Qeq_bool_iff in Z. now rewrite Z in Hin.
    + intros _. eexists. split; [reflexivity|]. exists (map fst (stored m)). split; [rewrite stored_grid; apply grid_sorted|]. split.
      { intros r c. rewrite in_map_iff. split.
        - intros ([[a b] v] & [= -> ->] & Hin). now apply stored_in in Hin as [Hin _].
        - intros Ho. exists (r, c, entry m r c). split; auto. now apply stored_in. }
      rewrite H2 in F. assert (Hv : forall t, In t (stored m) -> snd t = entry m (fst (fst t)) (snd (fst t))).
      { intros [[r c] v] Hin. now apply stored_in in Hin as [_ Hin]. }
      clear -F Hv. induction F as [|t q l ids [A B] F IH]; cbn [map combine]; [constructor|]. constructor.
      * cbn [fst snd]. split; auto. split; auto. rewrite (Hv t (or_introl eq_refl)). reflexivity.
      * apply IH. intros t' Ht'. apply Hv. now right.
  - fold nz in H1. apply Nat.eqb_neq in H1. rewrite H1. cbn [negb]. split; [reflexivity|]. intros Hz. exfalso. apply Hz.
    destruct t as [[r c] v]. cbn in Et. apply stored_in in Ht as [Ho ->]; auto. exists r, c. split; auto.
    apply negb_false_iff, Qeq_bool_iff in Et. exact Et.
Qed.

(** ** The constructor *)
Lemma pair_inv (users : list U) train test (items : option (list I)) p : make_user_pair users train test items = Ok p ->
  pair_shapes users train test items /\ up_users p = users /\ up_train p = train /\ up_items p = items /\
  up_test p = match test with Some x => x | None => mkCoo (c_rows train) (c_cols train) [] end /\ up_all p = add_csr train (up_test p).
Proof.
  unfold make_user_pair, pair_shapes. destruct (Nat.eqb_spec (length users) (c_rows train)) as [Hu|]; cbn [negb]; [|discriminate].
  destruct test as [x|].
  - destruct (Nat.eqb_spec (c_rows train) (c_rows x)) as [H1|], (Nat.eqb_spec (c_cols train) (c_cols x)) as [H2|]; cbn [andb obind]; try discriminate.
    destruct items as [is|].
    + destruct (Nat.eqb_spec (length is) (c_cols x)) as [H3|]; cbn [negb]; [|discriminate]. intros [= <-]. cbn. intuition congruence.
    + intros [= <-]. cbn. intuition congruence.
  - cbn [obind]. destruct items as [is|].
    + cbn [c_cols]. destruct (Nat.eqb_spec (length is) (c_cols train)) as [H3|]; cbn [negb]; [|discriminate]. intros [= <-]. cbn. intuition congruence.
    + intros [= <-]. cbn. intuition congruence.
Qed.
Lemma pair_accepts (users : list U) train test (items : option (list I)) :
  (pair_shapes users train test items -> exists p, make_user_pair users train test items = Ok p) /\
  (~ pair_shapes users train test items -> make_user_pair users train test items = Fail ValueError).
Proof.
  unfold make_user_pair, pair_shapes. destruct (Nat.eqb_spec (length users) (c_rows train)) as [Hu|Hu]; cbn [negb]; [|split; [tauto|auto]].
  destruct test as [x|].
  - destruct (Nat.eqb_spec (c_rows train) (c_rows x)) as [H1|H1], (Nat.eqb_spec (c_cols train) (c_cols x)) as [H2|H2]; cbn [andb obind];
      try (split; [intros (_ & [A B] & _); congruence|reflexivity]).
    destruct items as [is|].
    + destruct (Nat.eqb_spec (length is) (c_cols x)) as [H3|H3]; cbn [negb]; (split; [|intros H]); try (intros (_ & _ & H); congruence); try reflexivity; [eauto|].
      exfalso. apply H. intuition congruence.
    + split; [eauto|]. intros H. exfalso. apply H. intuition congruence.
  - cbn [obind]. destruct items as [is|].
    + cbn [c_cols]. destruct (Nat.eqb_spec (length is) (c_cols train)) as [H3|H3]; cbn [negb]; (split; [|intros H]); try (intros (_ & _ & H); congruence); try reflexivity; [eauto|].
      exfalso. apply H. intuition congruence.
    + split; [eauto|]. intros H. exfalso. apply H. intuition congruence.
Qed.
Lemma pair_test_shape (users : list U) train test (items : option (list I)) p : some_shape test -> make_user_pair users train test items = Ok p ->
  in_shape (up_test p) /\ c_rows (up_test p) = c_rows train /\ c_cols (up_test p) = c_cols train /\ (forall r c, (entry (up_test p) r c == test_entry test r c)%Q).
Proof.
  intros Hs E. apply pair_inv in E as ((_ & Hx & _) & _ & _ & _ & -> & _). destruct test as [x|]; cbn; [intuition|]. split; [intros r c v []|]. split; auto. split; auto. reflexivity.
Qed.
Lemma df_train_frame (users : list U) train test (is : list I) p : in_shape train -> make_user_pair users train test (Some is) = Ok p ->
  (stores_zero train -> df_train p = Fail ValueError) /\ (~ stores_zero train -> exists rows, df_train p = Ok rows /\ frame_of users is train rows).
Proof.
  intros Ht E. apply pair_inv in E as ((Hu & Hx & Hi) & Eu & Et & Ei & _ & _). unfold df_train. rewrite Et, <- Eu. apply x_to_df_some; auto. now rewrite Eu.
Qed.
Lemma df_test_frame (users : list U) train x (is : list I) p : in_shape x -> make_user_pair users train (Some x) (Some is) = Ok p ->
  (stores_zero x -> df_test p = Fail ValueError) /\ (~ stores_zero x -> exists rows, df_test p = Ok rows /\ frame_of users is x rows).
Proof.
  intros Ht E. apply pair_inv in E as ((Hu & [Hr Hc] & Hi) & Eu & Et & Ei & Ex & _). unfold df_test. rewrite Ex, <- Eu. apply x_to_df_some; auto; [rewrite Eu|]; congruence.
Qed.
Lemma df_test_empty (users : list U) train (is : list I) p : make_user_pair users train None (Some is) = Ok p -> df_test p = Ok [].
Proof.
  intros E. apply pair_inv in E as (_ & _ & _ & Ei & Ex & _). unfold df_test, x_to_df. rewrite Ei, Ex.
  assert (stored (mkCoo (c_rows train) (c_cols train) []) = []) as ->; [|reflexivity]. rewrite stored_grid. cbn [c_rows c_cols].
  destruct (grid _ _ _) as [|[[r c] v] l] eqn:G; auto. exfalso. assert (In (r, c, v) (grid (stored_at (mkCoo (c_rows train) (c_cols train) [])) (c_rows train) (c_cols train))) as H by (rewrite G; now left).
  apply grid_in in H as (_ & _ & H). apply stored_at_iff in H as [(w & []) _].
Qed.
Lemma df_no_items (users : list U) train test p : @make_user_pair U I users train test None = Ok p -> df_train p = Fail RuntimeError /\ df_test p = Fail RuntimeError.
Proof. intros E. apply pair_inv in E as (_ & _ & _ & Ei & _). split; now apply x_to_df_none. Qed.

(** ** X_all *)
Definition sum_at (a b : coo) (r c : nat) : option Q := let v := (entry a r c + entry b r c)%Q in if Qeq_bool v 0 then None else Some v.
Lemma add_grid a b : c_ent (add_csr a b) = grid (sum_at a b) (c_rows a) (c_cols a).
Proof.
  unfold add_csr, grid, sum_at. cbn [c_ent]. rewrite !flat_map_concat_map. f_equal. apply map_ext. intros r. rewrite !flat_map_concat_map. f_equal. apply map_ext. intros c. cbv zeta.
  destruct (Qeq_bool _ 0); reflexivity.
Qed.
Lemma add_entries a b : in_shape a -> in_shape b -> c_rows b = c_rows a -> c_cols b = c_cols a ->
  (forall r c, (entry (add_csr a b) r c == entry a r c + entry b r c)%Q) /\
  (forall r c, occupied (add_csr a b) r c <-> ~ (entry a r c + entry b r c == 0)%Q).
Proof.
  intros Ha Hb Er Ec.
  assert (Z : forall r c, ~ (r < c_rows a /\ c < c_cols a) -> (entry a r c + entry b r c == 0)%Q).
  { intros r c H. rewrite (entry_free a), (entry_free b); [reflexivity| |]; intros (v & Hin); apply H; [rewrite <- Er, <- Ec|]; eauto. }
  assert (O : forall r c, occupied (add_csr a b) r c <-> ~ (entry a r c + entry b r c == 0)%Q).
  { intros r c. unfold occupied. rewrite add_grid. split.
    - intros (v & Hin). apply grid_in in Hin as (_ & _ & E). unfold sum_at in E. cbv zeta in E. intros Q0. apply Qeq_bool_iff in Q0. rewrite Q0 in E. discriminate.
    - intros H. destruct (lt_dec r (c_rows a)) as [Hr|Hr], (lt_dec c (c_cols a)) as [Hc|Hc]; try (exfalso; apply H, Z; lia).
      exists (entry a r c + entry b r c)%Q. apply grid_in. split; auto. split; auto. unfold sum_at. cbv zeta. destruct (Qeq_bool _ 0) eqn:E; auto. apply Qeq_bool_iff in E. contradiction. }
  split; auto. intros r c. destruct (occupied_dec (add_csr a b) r c) as [Ho|Ho].
  - destruct Ho as (v & Hin). transitivity v.
    + apply (entry_unique (c_rows a) (c_cols a) (c_ent (add_csr a b))); auto. rewrite add_grid. apply sorted_nodup, grid_sorted.
    + rewrite add_grid in Hin. apply grid_in in Hin as (_ & _ & E). unfold sum_at in E. cbv zeta in E. destruct (Qeq_bool _ 0); [discriminate|]. injection E as <-. reflexivity.
  - rewrite (entry_free _ _ _ Ho). destruct (Qeq_bool (entry a r c + entry b r c) 0) eqn:E; [apply Qeq_bool_iff in E; now rewrite E|].
    exfalso. apply Ho, O. intros H. apply Qeq_bool_iff in H. congruence.
Qed.
Lemma pair_all (users : list U) train test (items : option (list I)) p : in_shape train -> some_shape test -> make_user_pair users train test items = Ok p ->
  up_users p = users /\ up_items p = items /\ up_train p = train /\
  c_rows (up_test p) = c_rows train /\ c_cols (up_test p) = c_cols train /\ c_rows (up_all p) = c_rows train /\ c_cols (up_all p) = c_cols train /\
  (forall r c, (entry (up_test p) r c == test_entry test r c)%Q) /\
  (forall r c, (entry (up_all p) r c == entry train r c + test_entry test r c)%Q) /\ ~ stores_zero (up_all p).
Proof.
  intros Ht Hs E. destruct (pair_test_shape _ _ _ _ _ Hs E) as (S1 & S2 & S3 & S4). apply pair_inv in E as (_ & Eu & Et & Ei & _ & Ea).
  destruct (add_entries train (up_test p) Ht S1 S2 S3) as [A O]. do 5 (split; auto). rewrite Ea. split; [reflexivity|]. split; [reflexivity|]. split; auto. split.
  - intros r c. rewrite A, S4. reflexivity.
  - intros (r & c & Ho & Hz). apply O in Ho. apply Ho. now rewrite <- A.
Qed.

(** ** concat *)
Lemma filter_map {X Y} (f : X -> Y) (g : Y -> bool) l : filter g (map f l) = map f (filter (fun x => g (f x)) l).
Proof. induction l as [|x l IH]; cbn; auto. destruct (g (f x)); cbn; now rewrite IH. Qed.
Lemma vstack_ok a b : in_shape a -> in_shape b -> c_cols b = c_cols a -> stacked a b (vstack a b) /\ in_shape (vstack a b).
Proof.
  intros Ha Hb Ec. split.
  - split; [reflexivity|]. split; [reflexivity|]. unfold entry, vstack. cbn [c_ent]. split; intros r c; rewrite ?filter_app, ?filter_map, ?map_app, ?map_map; cbn [fst snd].
    + intros Hr. rewrite (filter_none (fun x : nat * nat * Q => (c_rows a + fst (fst x) =? r) && (snd (fst x) =? c))); [cbn [map]; rewrite app_nil_r; reflexivity|].
      apply Forall_forall. intros x _. destruct (Nat.eqb_spec (c_rows a + fst (fst x)) r); [lia|reflexivity].
    + rewrite (filter_none (fun e : nat * nat * Q => (fst (fst e) =? c_rows a + r) && (snd (fst e) =? c))).
      2:{ apply Forall_forall. intros [[i j] v] Hin. apply Ha in Hin. cbn [fst snd]. destruct (Nat.eqb_spec i (c_rows a + r)); [lia|reflexivity]. }
      cbn [map app]. erewrite filter_ext; [reflexivity|]. intros x. cbv beta. f_equal.
      destruct (Nat.eqb_spec (c_rows a + fst (fst x)) (c_rows a + r)), (Nat.eqb_spec (fst (fst x)) r); auto; lia.
  - intros r c v Hin. unfold vstack in *. cbn [c_ent c_rows c_cols] in *. apply in_app_or in Hin as [Hin|Hin]; [apply Ha in Hin; lia|].
    apply in_map_iff in Hin as ([[i j] w] & [= <- <- <-] & Hin). apply Hb in Hin. cbn. lia.
Qed.
Lemma concat_ok us us' tr tr' te te' (is is' : option (list I)) (p q : user_pair U I) : in_shape tr -> in_shape tr' -> some_shape te -> some_shape te' ->
  make_user_pair us tr te is = Ok p -> make_user_pair us' tr' te' is' = Ok q ->
  (c_cols tr <> c_cols tr' -> concat_pairs p q = Fail ValueError) /\
  (c_cols tr = c_cols tr' -> exists pq, concat_pairs p q = Ok pq /\ up_users pq = us ++ us' /\ up_items pq = None /\
     stacked (up_train p) (up_train q) (up_train pq) /\ stacked (up_test p) (up_test q) (up_test pq) /\ stacked (up_all p) (up_all q) (up_all pq)).
Proof.
  intros Ht Ht' Hs Hs' E E'. pose proof (pair_inv _ _ _ _ _ E) as ((Lu & _) & Eu & Et & _). pose proof (pair_inv _ _ _ _ _ E') as ((Lu' & _) & Eu' & Et' & _).
  destruct (pair_test_shape _ _ _ _ _ Hs E) as (S1 & S2 & S3 & S4), (pair_test_shape _ _ _ _ _ Hs' E') as (S1' & S2' & S3' & S4').
  unfold concat_pairs. rewrite Et, Et', Eu, Eu'. split; intros Hc.
  - apply Nat.eqb_neq in Hc. now rewrite Hc.
  - rewrite (proj2 (Nat.eqb_eq _ _) Hc). cbn [negb].
    destruct (vstack_ok tr tr' Ht Ht' (eq_sym Hc)) as [V1 V2]. destruct (vstack_ok (up_test p) (up_test q) S1 S1' ltac:(congruence)) as [W1 W2].
    destruct (proj1 (pair_accepts (us ++ us') (vstack tr tr') (Some (vstack (up_test p) (up_test q))) (@None (list I)))) as (pq & E2).
    { split; [rewrite app_length; cbn; congruence|]. split; [cbn; split; congruence|auto]. }
    exists pq. split; [exact E2|]. destruct (pair_all _ _ (Some (vstack (up_test p) (up_test q))) _ _ V2 W2 E2) as (P1 & P2 & P3 & P4 & P5 & P6 & P7 & P8 & P9 & _).
    destruct (pair_all _ _ _ _ _ Ht Hs E) as (_ & _ & _ & _ & _ & A1 & A2 & A3 & A4 & _). destruct (pair_all _ _ _ _ _ Ht' Hs' E') as (_ & _ & _ & _ & _ & A1' & A2' & A3' & A4' & _).
    split; auto. split; auto. split; [now rewrite P3|]. cbn [test_entry] in *. destruct W1 as (W1 & W3 & W4 & W5), V1 as (V1 & V3 & V4 & V5). split.
    + split; [rewrite P4; cbn; congruence|]. split; [rewrite P5; cbn; congruence|]. split; intros; rewrite P8; auto.
    + split; [rewrite P6, A1, A1'; reflexivity|]. split; [rewrite P7, A2; reflexivity|]. split.
      * intros r c Hr. rewrite A1 in Hr. rewrite P9, A4, V4, W4, A3 by congruence. reflexivity.
      * intros r c. rewrite A1, P9, A4', V5. rewrite <- S2, W5, A3'. reflexivity.
Qed.

(** ** Round trip *)
Variable eq_u : forall a b : U, {a = b} + {a <> b}.
Variable eq_i : forall a b : I, {a = b} + {a <> b}.
Lemma pos_dec (a b : nat * nat) : {a = b} + {a <> b}.
Proof. decide equality; apply Nat.eq_dec. Qed.
Lemma frame_sum us is m rows r c x y : NoDup us -> NoDup is -> frame_of us is m rows -> nth_error us r = Some x -> nth_error is c = Some y ->
  (fold_right Qplus 0%Q (map ev_r (filter (fun e => (if eq_u (ev_u e) x then true else false) && (if eq_i (ev_i e) y then true else false)) (frame_events rows))) == entry m r c)%Q.
Proof.
  intros Nu Ni (ps & HS & HO & F) Ex Ey. apply sorted_nodup in HS.
  assert (G : (fold_right Qplus 0%Q (map ev_r (filter (fun e => (if eq_u (ev_u e) x then true else false) && (if eq_i (ev_i e) y then true else false)) (frame_events rows))) ==
     if in_dec pos_dec (r, c) ps then entry m r c else 0)%Q).
  { clear HO. induction F as [|[i j] [[u k] v] ps rows (A & B & C) F IH]; [reflexivity|]. inversion HS as [|? ? Hx HS' E1]; subst. specialize (IH HS').
    cbn [frame_events map filter ev_u ev_i fst snd] in *. fold (frame_events rows) in *.
    destruct (eq_u u x) as [->|Hux]; cbn [andb].
    - assert (i = r) as -> by (apply (proj1 (NoDup_nth_error us) Nu); [apply nth_error_Some; congruence|congruence]).
      destruct (eq_i k y) as [->|Hky].
      + assert (j = c) as -> by (apply (proj1 (NoDup_nth_error is) Ni); [apply nth_error_Some; congruence|congruence]).
        cbn [map fold_right ev_r]. rewrite IH. destruct (in_dec _ (r, c) ps) as [Hin|_]; [contradiction|].
        destruct (in_dec _ (r, c) ((r, c) :: ps)) as [_|Hn]; [rewrite C; ring|exfalso; apply Hn; now left].
      + rewrite IH. destruct (in_dec _ (r, c) ps) as [Hin|Hn], (in_dec _ (r, c) ((r, j) :: ps)) as [Hin'|Hn']; try reflexivity; [exfalso; apply Hn'; now right|].
        destruct Hin' as [[= ->]|]; [congruence|contradiction].
    - rewrite IH. destruct (in_dec _ (r, c) ps) as [Hin|Hn], (in_dec _ (r, c) ((i, j) :: ps)) as [Hin'|Hn']; try reflexivity; [exfalso; apply Hn'; now right|].
      destruct Hin' as [[= -> _]|]; [congruence|contradiction]. }
  rewrite G. destruct (in_dec _ _ _) as [|Hn]; [reflexivity|]. rewrite entry_free; [reflexivity|]. intros Ho. apply Hn, HO, Ho.
Qed.
Lemma round_trip uniq_u uniq_i us is m rows : lists_distinct uniq_u -> lists_distinct uniq_i -> NoDup us -> NoDup is ->
  in_shape m -> c_rows m = length us -> c_cols m = length is -> frame_of us is m rows ->
  exists m', df_to_sparse eq_u eq_i uniq_u uniq_i (frame_events rows) (Some us) (Some is) true = Ok (m', us, is) /\
    c_rows m' = c_rows m /\ c_cols m' = c_cols m /\ forall r c, (entry m' r c == entry m r c)%Q.
Proof.
  intros Hu Hi Nu Ni Hm Er Ec F.
  destruct (df_to_sparse_entries eq_u eq_i uniq_u uniq_i Hu Hi (frame_events rows) (Some us) (Some is) true) as (m' & us' & is' & E & R & C & _ & _ & Eu & Ei & _ & _ & En & Sh); [intros ? [= <-]; auto|intros ? [= <-]; auto|].
  specialize (Eu _ eq_refl). specialize (Ei _ eq_refl). subst us' is'. exists m'. split; auto. split; [congruence|]. split; [congruence|]. intros r c.
  destruct (nth_error us r) as [x|] eqn:Ex; [destruct (nth_error is c) as [y|] eqn:Ey|].
  - rewrite (En r c x y Ex Ey). apply frame_sum with (us := us) (is := is); auto.
  - apply nth_error_None in Ey. rewrite !entry_free; [reflexivity| |]; intros (v & Hin); [apply Hm in Hin|apply Sh in Hin]; lia.
  - apply nth_error_None in Ex. rewrite !entry_free; [reflexivity| |]; intros (v & Hin); [apply Hm in Hin|apply Sh in Hin]; lia.
Qed.
End Pair.
