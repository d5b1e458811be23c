(** Proofs for C68: the splits of data frames. *)
From Verif Require Import Base Sort_Proofs Rec_Model Rec_Proofs Seed_Spec Split_Proofs SplitDf_Proofs SplitTop_Proofs Seed_Proofs.
Local Open Scope nat_scope.

Section Top.
Context {G M : Type}.
Variable np_seed : Z -> G.
Variable np_entropy : G.
Variable np_permute : G -> nat -> list nat * G.
Variable np_randint : G -> Z * G.
Variable mt_seed : Z -> M.
Variable mt_permute : M -> nat -> list nat * M.
Hypothesis Hnp : permutes np_permute.
Hypothesis Hmt : permutes mt_permute.
Variable rnd : Q -> Q.
Context {U I T : Type}.
Variable eq_u : forall a b : U, {a = b} + {a <> b}.
Variable eq_i : forall a b : I, {a = b} + {a <> b}.
Notation event := (event U I T).
Notation convert := (convert_randomstate np_seed np_entropy).

Section Run.
Variable uniq_u : listing -> list U -> list U.
Variable uniq_i : listing -> list I -> list I.
Variable sort_time : list event -> list event.
Notation partial := (partial_seeded np_seed np_entropy np_permute np_randint mt_seed mt_permute rnd eq_u eq_i uniq_u uniq_i sort_time).
Notation specific := (specific_seeded np_seed np_entropy np_permute rnd eq_u eq_i uniq_u uniq_i).
Notation random_part := (userwise_random_seeded np_seed np_entropy np_randint mt_seed mt_permute rnd eq_u eq_i uniq_u uniq_i).

Lemma random_part_inv (df : list event) items n ratio ceil rated g pd g' : random_part df items n ratio ceil rated g = Ok (pd, g') ->
  g' = snd (np_randint g) /\ exists sh, row_shuffles sh /\ userwise_random eq_u eq_i uniq_u uniq_i rnd df items n ratio ceil rated sh = Ok pd.
Proof.
  unfold userwise_random_seeded, userwise_random. destruct (df_to_sparse _ _ _ _ df None (Some items) rated) as [[[x us] is]| | |]; cbn [obind]; try discriminate.
  destruct (rowwise_seeded _ _ _ _ _ _ _ _ _ _) as [[p g1]| | |] eqn:E; cbn [obind]; try discriminate.
  apply rowwise_seeded_inv in E as (g0 & E0 & -> & E). cbn in E0. injection E0 as <-.
  destruct (make_pair us (fst p) (Some (snd p))) as [d| | |] eqn:Em; cbn [omap obind]; try discriminate. intros [= <- <-]. split; [reflexivity|].
  exists (mt_shuffle mt_permute (mt_seed (fst (np_randint g))) (csr_rows x)). split; [apply mt_shuffle_ok, Hmt|]. rewrite E. cbn [obind]. exact Em.
Qed.

Definition first_shuffle (g : G) (l : list U) : list U := reorder (fst (np_permute g (length l))) l.
(** The state after the shuffles of users; [gate]: are there test users to take. *)
Definition users_state (g : G) (n_all n_held : nat) (gate : bool) : G :=
  let g1 := snd (np_permute g n_all) in if gate then snd (np_permute g1 n_held) else g1.
Definition seeded_part (o : options) (df' : list event) items us held n_held g :=
  if o_time o
  then omap (fun d => (d, g)) (userwise_time eq_u eq_i uniq_u uniq_i rnd sort_time (rows_of eq_u df' us) items n_held held (o_ceil o) (o_rated o))
  else random_part (rows_of eq_u df' us) items n_held held (o_ceil o) (o_rated o) g.
Lemma partial_seeded_inv (df : list event) o a ds g' : partial df o a = Ok (ds, g') ->
  exists g ch, convert a = Ok g /\ choices_ok ch /\ partial_user_holdout eq_u eq_i uniq_u uniq_i rnd sort_time df o ch = Ok ds /\
    let uids := uniq_u ByAppearance (map ev_u df) in
    ch_first ch = first_shuffle g /\ ch_second ch = first_shuffle (snd (np_permute g (length uids))) /\
    exists n_val n_test ratio, chosen_counts uniq_u rnd df o = Ok (n_val, n_test, ratio) /\
      let gate := Qle_bool 1 (rnd (ratio * inject_Z (Z.of_nat (length uids)))%Q) in
      let g2 := users_state g (length uids) (length (snd (split_list (first_shuffle g) uids (n_val + n_test)))) gate in
      g' = if o_time o then g2 else snd (np_randint (snd (np_randint g2))).
Proof.
  unfold partial_seeded, partial_user_holdout, chosen_counts.
  destruct (unit_interval (o_test_ratio o)); cbn [negb]; [|discriminate]. destruct (unit_interval (o_val_ratio o)); cbn [negb]; [|discriminate].
  set (uids := uniq_u ByAppearance (map ev_u df)). set (n_all := length uids). cbv zeta.
  set (c1 := match o_n_val o with None => _ | Some n => _ end). destruct c1 as [n_val| | |]; cbn [obind]; try discriminate.
  set (c2 := match o_n_test o with None => _ | Some n => _ end). destruct c2 as [[n_test ratio]| | |]; cbn [obind omap fst snd]; try discriminate.
  destruct (convert a) as [g| | |]; cbn [obind]; try discriminate.
  set (gate := Qle_bool 1 (rnd (ratio * inject_Z (Z.of_nat n_all)))).
  set (df' := drop_dup eq_u eq_i [] df). set (items := uniq_i BySet (map ev_i df')).
  destruct (np_permute g n_all) as [p1 g1] eqn:E1.
  set (first := first_shuffle g). set (second := first_shuffle g1).
  assert (S1 : split_list (reorder p1) uids (n_val + n_test) = split_list first uids (n_val + n_test)).
  { unfold split_list, first, first_shuffle. fold n_all. rewrite E1. reflexivity. }
  rewrite S1. destruct (split_list first uids (n_val + n_test)) as [tu vt] eqn:E2. cbn [snd].
  assert (S2 : (if gate then let '(p2, g2) := np_permute g1 (length vt) in let '(v, t) := split_list (reorder p2) vt n_test in (v, t, g2) else (vt, [], g1)) =
     (fst (if gate then split_list second vt n_test else (vt, [])), snd (if gate then split_list second vt n_test else (vt, [])), users_state g n_all (length vt) gate)).
  { unfold users_state. rewrite E1. cbn [snd]. destruct gate; [|reflexivity].
    destruct (np_permute g1 (length vt)) as [p2 g2] eqn:E3. cbn [snd].
    assert (S3 : split_list (reorder p2) vt n_test = split_list second vt n_test) by (unfold split_list, second, first_shuffle; rewrite E3; reflexivity).
    rewrite S3. destruct (split_list second vt n_test). reflexivity. }
  rewrite S2. clear S2.
  set (vx := if gate then split_list second vt n_test else (vt, [])). destruct vx as [v t] eqn:Evx. cbn [fst snd].
  set (g2 := users_state g n_all (length vt) gate).
  destruct (df_to_sparse eq_u eq_i uniq_u uniq_i (rows_of eq_u df' tu) (Some tu) (Some items) false) as [tr| | |] eqn:Et; cbn [obind]; try discriminate.
  destruct (make_pair tu (fst (fst tr)) None) as [train| | |] eqn:Em; cbn [obind]; try discriminate.
  set (part := seeded_part o df' items).
  intros H. change (obind (part v (o_held_val o) (o_n_held_val o) g2) (fun vg => let '(val, g3) := vg in omap (fun xg => (mkDatasets train val (fst xg) items, snd xg)) (part t (o_held_test o) (o_n_held_test o) g3)) = Ok (ds, g')) in H. revert H.
  assert (HPt : forall us held n_held gg pd gg', part us held n_held gg = Ok (pd, gg') ->
     gg' = (if o_time o then gg else snd (np_randint gg)) /\ exists sh, row_shuffles sh /\ part_of eq_u eq_i uniq_u uniq_i rnd sort_time o (rows_of eq_u df' us) items held n_held sh = Ok pd).
  { intros us held n_held gg pd gg'. unfold part, seeded_part, part_of. destruct (o_time o).
    - destruct (userwise_time _ _ _ _ _ _ _ _ _ _ _ _) as [d| | |]; cbn [omap obind]; try discriminate. intros [= <- <-]. split; [reflexivity|].
      exists (fun _ n => seq 0 n). split; [intros r n; reflexivity|reflexivity].
    - apply random_part_inv. }
  destruct (part v (o_held_val o) (o_n_held_val o) g2) as [[val g3]| | |] eqn:Ev; cbn [obind]; try discriminate.
  destruct (part t (o_held_test o) (o_n_held_test o) g3) as [[test g4]| | |] eqn:Ex; cbn [obind omap fst snd]; try discriminate.
  intros [= <- <-].
  destruct (HPt _ _ _ _ _ _ Ev) as (Eg3 & sv & Hsv & Ev'). destruct (HPt _ _ _ _ _ _ Ex) as (Eg4 & sx & Hsx & Ex').
  exists g, (mkChoices first second sv sx). split; [reflexivity|]. cbn [ch_first ch_second ch_val ch_test]. split.
  { constructor; cbn [ch_first ch_second ch_val ch_test]; auto; apply draw_shuffles, Hnp. }
  split.
  { rewrite E2. change (if gate then split_list second vt n_test else (vt, [])) with vx. rewrite Evx. cbn [fst snd]. rewrite Et. cbn [obind]. rewrite Em. cbn [obind].
    unfold part_of in Ev', Ex'. rewrite Ev'. cbn [obind]. rewrite Ex'. reflexivity. }
  split; [reflexivity|]. split; [fold n_all; rewrite E1; reflexivity|].
  exists n_val, n_test, ratio. split; [reflexivity|]. fold first. rewrite E2. cbn [snd]. fold g2. rewrite Eg4, Eg3. destruct (o_time o); reflexivity.
Qed.

Lemma specific_seeded_inv (df : list event) ind rv rt a ds g' : specific df ind rv rt a = Ok (ds, g') ->
  exists sh1 sh2, shuffles sh1 /\ shuffles sh2 /\ holdout_specific eq_u eq_i uniq_u uniq_i rnd df ind rv rt sh1 sh2 = Ok ds.
Proof.
  unfold specific_seeded, holdout_specific. cbv zeta.
  set (vt := rnd (rnd (1 - rv) - rt)). destruct (negb (Qle_bool _ vt)); [discriminate|]. destruct (negb (length ind =? length df)); [discriminate|].
  set (items := uniq_i BySort (map ev_i df)). set (fdf := combine df ind). set (va := uniq_u BySort _). set (ratio := rnd (1 - vt)).
  destruct (convert a) as [g| | |]; cbn [obind]; try discriminate.
  set (k1 := py_int _).
  set (sp := if Qle_bool 1 ratio then _ else _). set (g1 := snd sp).
  assert (E1 : sp = (fst (if Qle_bool 1 ratio then (va, []) else split_list (first_shuffle g) va k1), snd (if Qle_bool 1 ratio then (va, []) else split_list (first_shuffle g) va k1), g1)).
  { unfold g1, sp. destruct (Qle_bool 1 ratio); [reflexivity|]. destruct (np_permute g (length va)) as [p1 g2] eqn:E.
    assert (S : split_list (reorder p1) va k1 = split_list (first_shuffle g) va k1) by (unfold split_list, first_shuffle; rewrite E; reflexivity).
    rewrite S. destruct (split_list (first_shuffle g) va k1). reflexivity. }
  clearbody g1. rewrite E1. clear E1 sp. destruct (if Qle_bool 1 ratio then (va, []) else split_list (first_shuffle g) va k1) as [vt1 vt2] eqn:E1. cbn [fst snd].
  destruct (Qeq_bool ratio 0) eqn:E0; [discriminate|]. set (k2 := py_int _).
  destruct (np_permute g1 (length vt1)) as [p2 g2] eqn:E2.
  assert (S2 : split_list (reorder p2) vt1 k2 = split_list (first_shuffle g1) vt1 k2) by (unfold split_list, first_shuffle; rewrite E2; reflexivity).
  rewrite S2. intros H. exists (first_shuffle g), (first_shuffle g1). split; [apply draw_shuffles, Hnp|]. split; [apply draw_shuffles, Hnp|].
  rewrite E1. fold k2. destruct (split_list (first_shuffle g1) vt1 k2) as [x y].
  destruct (dataset_train _ _ _ _ _) as [tr| | |]; cbn [obind] in *; try discriminate. destruct (dataset_held _ _ _ _ _) as [va1| | |]; cbn [obind] in *; try discriminate.
  destruct (dataset_held _ _ _ _ _) as [te| | |]; cbn [obind omap] in *; try discriminate. injection H as <- _. reflexivity.
Qed.

(** The users of a part. *)
Lemma part_users (Hui : lists_distinct uniq_i) (Huu : lists_distinct uniq_u) o (d : list event) items held n_held sh pd :
  (forall e, In e d -> In (ev_i e) items) ->
  part_of eq_u eq_i uniq_u uniq_i rnd sort_time o d items held n_held sh = Ok pd ->
  forall x, In x (pd_users pd) <-> exists e, In e d /\ ev_u e = x.
Proof.
  intros Hi E. assert (Eu : exists s, pd_users pd = uniq_u s (map ev_u d)).
  { unfold part_of in E. destruct (o_time o).
    - unfold userwise_time in E. destruct (split_last_n _ _ _ d _ _ _) as [tr te]. destruct (o_rated o); [discriminate|].
      destruct (df_to_sparse _ _ _ _ tr _ _ _) as [x| | |]; cbn [obind] in E; try discriminate.
      destruct (df_to_sparse _ _ _ _ te _ _ _) as [y| | |]; cbn [obind] in E; try discriminate.
      unfold make_pair in E. destruct (negb _); [discriminate|]. destruct (_ && _); [|discriminate]. injection E as <-. exists BySet. reflexivity.
    - unfold userwise_random, df_to_sparse in E. cbv zeta in E.
      assert (Ek : filter (fun e => id_mem eq_i (ev_i e) items) d = d) by (apply filter_id; apply Forall_forall; intros e He; now apply id_mem_iff, Hi).
      rewrite Ek in E. destruct (negb _); [discriminate|]. destruct (negb _); [discriminate|]. destruct (oall _) as [ent| | |]; cbn [obind omap] in E; try discriminate.
      destruct (rowwise_split _ _ _ _ _) as [p| | |]; cbn [obind] in E; try discriminate.
      unfold make_pair in E. destruct (negb _); [discriminate|]. destruct (_ && _); [|discriminate]. injection E as <-. exists BySort. reflexivity. }
  destruct Eu as [s ->]. intros x. rewrite (proj2 (Huu s _)), in_map_iff. split; intros (e & H1 & H2); eauto.
Qed.
Lemma partial_users_inv (Hui : lists_distinct uniq_i) (Huu : lists_distinct uniq_u) (df : list event) o a ds g' : partial df o a = Ok (ds, g') ->
  exists g n_val n_test ratio, convert a = Ok g /\ chosen_counts uniq_u rnd df o = Ok (n_val, n_test, ratio) /\
    let uids := uniq_u ByAppearance (map ev_u df) in
    let s1 := split_list (first_shuffle g) uids (n_val + n_test) in
    let gate := Qle_bool 1 (rnd (ratio * inject_Z (Z.of_nat (length uids)))%Q) in
    let s2 := split_list (first_shuffle (snd (np_permute g (length uids)))) (snd s1) n_test in
    pd_users (ds_train ds) = fst s1 /\
    (forall x, In x (pd_users (ds_val ds)) <-> In x (if gate then fst s2 else snd s1)) /\
    (forall x, In x (pd_users (ds_test ds)) <-> In x (if gate then snd s2 else [])) /\
    g' = let g2 := users_state g (length uids) (length (snd s1)) gate in if o_time o then g2 else snd (np_randint (snd (np_randint g2))).
Proof.
  intros E. apply partial_seeded_inv in E as (g & ch & Eg & Hch & E & E1 & E2 & n_val & n_test & ratio & Ec & Eg'). cbv zeta in *.
  apply partial_inv in E as (n1 & n2 & q & E). cbv zeta in E. destruct E as (Ec' & _ & _ & Ei & (tr & Et & Em) & Ev & Ex).
  rewrite Ec in Ec'. injection Ec' as <- <- <-. rewrite E1, E2 in *.
  exists g, n_val, n_test, ratio. split; [exact Eg|]. split; [exact Ec|]. cbv zeta.
  set (uids := uniq_u ByAppearance (map ev_u df)) in *. set (df' := drop_dup eq_u eq_i [] df) in *. set (items := uniq_i BySet (map ev_i df')) in *.
  set (s1 := split_list (first_shuffle g) uids (n_val + n_test)) in *. set (s2 := split_list _ (snd s1) n_test) in *. set (gate := Qle_bool 1 _) in *.
  destruct (drop_dup_ok eq_u eq_i df []) as (D1 & D2 & D3). fold df' in D1, D2, D3.
  assert (Hit : forall us e, In e (rows_of eq_u df' us) -> In (ev_i e) items) by (intros us e He; apply filter_In in He as [He _]; apply Hui; now apply in_map).
  assert (Hu' : forall x, In x uids -> exists e, In e df' /\ ev_u e = x).
  { intros x Hx. apply (proj1 (proj2 (Huu _ _) _)) in Hx. apply in_map_iff in Hx as (e & <- & He). destruct (D3 e He) as [[]|Hin]. apply in_map_iff in Hin as (e' & E' & He'). exists e'. split; auto. unfold pair_of in E'. congruence. }
  assert (Hro : forall us, (forall x, In x us -> In x uids) -> forall x, (exists e, In e (rows_of eq_u df' us) /\ ev_u e = x) <-> In x us).
  { intros us Hus x. split.
    - intros (e & He & <-). apply filter_In in He as [_ He]. now apply id_mem_iff in He.
    - intros Hx. destruct (Hu' x (Hus x Hx)) as (e & He & <-). exists e. split; [|reflexivity]. apply filter_In. split; [exact He|]. now apply id_mem_iff. }
  pose proof (split_list_perm (first_shuffle g) uids (n_val + n_test) (draw_shuffles np_permute g Hnp)) as P1. fold s1 in P1.
  pose proof (split_list_perm (first_shuffle (snd (np_permute g (length uids)))) (snd s1) n_test (draw_shuffles np_permute _ Hnp)) as P2. fold s2 in P2.
  assert (I1 : forall x, In x (snd s1) -> In x uids) by (intros x Hx; eapply Permutation_in; [exact P1|]; apply in_or_app; auto).
  assert (I2 : forall x, In x (fst s2) \/ In x (snd s2) -> In x uids) by (intros x Hx; apply I1; eapply Permutation_in; [exact P2|]; now apply in_or_app).
  split. { unfold make_pair in Em. destruct (negb _); [discriminate|]. injection Em as <-. reflexivity. }
  split. { intros x. rewrite (part_users Hui Huu _ _ _ _ _ _ _ (Hit _) Ev x). apply Hro. destruct gate; [intros y Hy; apply I2; auto|exact I1]. }
  split. { intros x. rewrite (part_users Hui Huu _ _ _ _ _ _ _ (Hit _) Ex x). apply Hro. destruct gate; [intros y Hy; apply I2; auto|intros y []]. }
  exact Eg'.
Qed.
Lemma partial_is_split (df : list event) o a ds g' : partial df o a = Ok (ds, g') ->
  exists ch, choices_ok ch /\ partial_user_holdout eq_u eq_i uniq_u uniq_i rnd sort_time df o ch = Ok ds.
Proof. intros E. apply partial_seeded_inv in E as (g & ch & _ & Hch & E & _). eauto. Qed.
End Run.

Section Two.
Variables uniq_u uniq_u' : listing -> list U -> list U.
Variables uniq_i uniq_i' : listing -> list I -> list I.
Hypothesis Huu : lists_distinct uniq_u.
Hypothesis Huu' : lists_distinct uniq_u'.
Hypothesis Hui : lists_distinct uniq_i.
Hypothesis Hui' : lists_distinct uniq_i'.
Variables sort_time sort_time' : list event -> list event.
Notation partial := (partial_seeded np_seed np_entropy np_permute np_randint mt_seed mt_permute rnd eq_u eq_i uniq_u uniq_i sort_time).
Notation partial' := (partial_seeded np_seed np_entropy np_permute np_randint mt_seed mt_permute rnd eq_u eq_i uniq_u' uniq_i' sort_time').

Lemma counts_same (df df' : list event) o o' : same_user_choice o o' ->
  uniq_u ByAppearance (map ev_u df) = uniq_u' ByAppearance (map ev_u df') -> chosen_counts uniq_u rnd df o = chosen_counts uniq_u' rnd df' o'.
Proof. intros (E1 & E2 & E3 & E4) E. unfold chosen_counts. rewrite E, E1, E2, E3, E4. reflexivity. Qed.
Lemma users_same (df df' : list event) o o' a ds ds' g g' : same_user_choice o o' ->
  uniq_u ByAppearance (map ev_u df) = uniq_u' ByAppearance (map ev_u df') ->
  partial df o a = Ok (ds, g) -> partial' df' o' a = Ok (ds', g') ->
  pd_users (ds_train ds) = pd_users (ds_train ds') /\
  (forall x, In x (pd_users (ds_val ds)) <-> In x (pd_users (ds_val ds'))) /\
  (forall x, In x (pd_users (ds_test ds)) <-> In x (pd_users (ds_test ds'))) /\
  (o_time o = o_time o' -> g = g').
Proof.
  intros Ho Eu E E'.
  apply (partial_users_inv uniq_u uniq_i sort_time Hui Huu) in E as (h & n1 & n2 & q & Eh & Ec & E). cbv zeta in E. destruct E as (Tr & V & X & Eg).
  apply (partial_users_inv uniq_u' uniq_i' sort_time' Hui' Huu') in E' as (h' & n1' & n2' & q' & Eh' & Ec' & E'). cbv zeta in E'. destruct E' as (Tr' & V' & X' & Eg').
  rewrite Eh in Eh'. injection Eh' as <-. rewrite (counts_same df df' o o' Ho Eu) in Ec. rewrite Ec in Ec'. injection Ec' as <- <- <-.
  rewrite Eu in *. split; [congruence|]. split; [intros x; rewrite V, V'; reflexivity|]. split; [intros x; rewrite X, X'; reflexivity|].
  intros Et. rewrite Eg, Eg', Et. reflexivity.
Qed.
End Two.

Section Sets.
Variables uniq_u uniq_u' : listing -> list U -> list U.
Variables uniq_i uniq_i' : listing -> list I -> list I.
Variable le : T -> T -> Prop.
Variable sort_time : list event -> list event.
Hypothesis Hor : oracles_ok uniq_u uniq_i le sort_time.
Hypothesis Hor' : oracles_ok uniq_u' uniq_i' le sort_time.
Hypothesis Su : same_but_sets uniq_u uniq_u'.
Hypothesis Si : same_but_sets uniq_i uniq_i'.
Notation partial u i := (partial_seeded np_seed np_entropy np_permute np_randint mt_seed mt_permute rnd eq_u eq_i u i sort_time).

(** What a split by time contains, in terms of the events. *)
Lemma time_inv u i (Ho : oracles_ok u i le sort_time) (df : list event) o a ds g' : o_time o = true -> partial u i df o a = Ok (ds, g') ->
  exists g n_val n_test ratio, convert a = Ok g /\ chosen_counts u rnd df o = Ok (n_val, n_test, ratio) /\
    let uids := u ByAppearance (map ev_u df) in
    let df' := drop_dup eq_u eq_i [] df in
    let s1 := split_list (first_shuffle g) uids (n_val + n_test) in
    let gate := Qle_bool 1 (rnd (ratio * inject_Z (Z.of_nat (length uids)))%Q) in
    let s2 := split_list (first_shuffle (snd (np_permute g (length uids)))) (snd s1) n_test in
    let last us n q := split_last_n eq_u rnd sort_time (rows_of eq_u df' us) (option_map Z.of_nat n) q (o_ceil o) in
    let vu := if gate then fst s2 else snd s1 in
    let xu := if gate then snd s2 else [] in
    learn_labels (ds_items ds) (ds_train ds) = map (label_of (fun _ => 1%Q)) (rows_of eq_u df' (fst s1)) /\ held_labels (ds_items ds) (ds_train ds) = [] /\
    learn_labels (ds_items ds) (ds_val ds) = map (label_of (fun _ => 1%Q)) (fst (last vu (o_n_held_val o) (o_held_val o))) /\
    held_labels (ds_items ds) (ds_val ds) = map (label_of (fun _ => 1%Q)) (snd (last vu (o_n_held_val o) (o_held_val o))) /\
    learn_labels (ds_items ds) (ds_test ds) = map (label_of (fun _ => 1%Q)) (fst (last xu (o_n_held_test o) (o_held_test o))) /\
    held_labels (ds_items ds) (ds_test ds) = map (label_of (fun _ => 1%Q)) (snd (last xu (o_n_held_test o) (o_held_test o))).
Proof.
  intros Eti E. apply partial_seeded_inv in E as (g & ch & Eg & Hch & E & E1 & E2 & n_val & n_test & ratio & Ec & _). cbv zeta in *.
  apply partial_inv in E as (n1 & n2 & q & E). cbv zeta in E. destruct E as (Ec' & _ & _ & Ei & (tr & Et & Em) & Ev & Ex).
  rewrite Ec in Ec'. injection Ec' as <- <- <-. rewrite E1, E2 in *.
  exists g, n_val, n_test, ratio. split; [exact Eg|]. split; [exact Ec|]. cbv zeta.
  set (uids := u ByAppearance (map ev_u df)) in *. set (df' := drop_dup eq_u eq_i [] df) in *. set (items := i BySet (map ev_i df')) in *.
  set (s1 := split_list (first_shuffle g) uids (n_val + n_test)) in *. set (s2 := split_list _ (snd s1) n_test) in *. set (gate := Qle_bool 1 _) in *.
  pose proof (ok_uniq_u _ _ _ _ Ho) as Hu. pose proof (ok_uniq_i _ _ _ _ Ho) as Hi. pose proof (ok_sort _ _ _ _ Ho) as Hs.
  assert (Hit : forall us e, In e (rows_of eq_u df' us) -> In (ev_i e) items) by (intros us e He; apply filter_In in He as [He _]; apply Hi; now apply in_map).
  assert (Ni : NoDup items) by apply Hi.
  pose proof (split_list_perm (first_shuffle g) uids (n_val + n_test) (draw_shuffles np_permute g Hnp)) as P1. fold s1 in P1.
  assert (Ntu : NoDup (fst s1)). { pose proof (proj1 (Hu ByAppearance (map ev_u df))) as N. fold uids in N. eapply Permutation_NoDup in N; [|symmetry; exact P1]. now apply nodup_app_iff in N. }
  assert (Ha : forall e, In e (rows_of eq_u df' (fst s1)) -> In (ev_u e) (fst s1) /\ In (ev_i e) items).
  { intros e He. split; [apply filter_In in He as [_ He]; now apply id_mem_iff in He|now apply Hit in He]. }
  destruct (train_pair_ok eq_u eq_i u i le sort_time Ho _ _ _ _ _ Ntu Ni Ha Et Em) as (_ & T2 & T3).
  unfold part_of in Ev, Ex. rewrite Eti in Ev, Ex.
  destruct (userwise_time_ok eq_u eq_i u i Hu Hi rnd le sort_time Hs _ _ _ _ _ _ _ Ni (Hit _) Ev) as (_ & _ & _ & _ & _ & _ & tr1 & te1 & Es1 & V1 & V2).
  destruct (userwise_time_ok eq_u eq_i u i Hu Hi rnd le sort_time Hs _ _ _ _ _ _ _ Ni (Hit _) Ex) as (_ & _ & _ & _ & _ & _ & tr2 & te2 & Es2 & X1 & X2).
  rewrite Ei. rewrite Es1, Es2. cbn [fst snd]. auto 6.
Qed.
Lemma time_same (df : list event) o a ds ds' g g' : o_time o = true ->
  partial uniq_u uniq_i df o a = Ok (ds, g) -> partial uniq_u' uniq_i' df o a = Ok (ds', g') -> same_split ds ds'.
Proof.
  intros Eti E E'. pose proof (proj1 (Su (map ev_u df))) as Eu.
  apply (time_inv _ _ Hor) in E as (h & n1 & n2 & q & Eh & Ec & E); [|exact Eti]. cbv zeta in E. destruct E as (A1 & A2 & A3 & A4 & A5 & A6).
  apply (time_inv _ _ Hor') in E' as (h' & n1' & n2' & q' & Eh' & Ec' & E'); [|exact Eti]. cbv zeta in E'. destruct E' as (B1 & B2 & B3 & B4 & B5 & B6).
  rewrite Eh in Eh'. injection Eh' as <-. unfold chosen_counts in Ec. rewrite Eu in Ec. fold (chosen_counts uniq_u' rnd df o) in Ec. rewrite Ec in Ec'. injection Ec' as <- <- <-.
  rewrite Eu in *. unfold same_split, same_part. rewrite A1, A2, A3, A4, A5, A6, B1, B2, B3, B4, B5, B6. repeat split; reflexivity.
Qed.
Lemma specific_same (df : list event) ind rv rt a :
  specific_seeded np_seed np_entropy np_permute rnd eq_u eq_i uniq_u uniq_i df ind rv rt a = specific_seeded np_seed np_entropy np_permute rnd eq_u eq_i uniq_u' uniq_i' df ind rv rt a.
Proof.
  unfold specific_seeded, dataset_train, dataset_held. rewrite (proj2 (Si (map ev_i df))), (proj2 (Su (map (fun p => ev_u (fst p)) (filter snd (combine df ind))))).
  destruct (negb _); [reflexivity|]. destruct (negb _); [reflexivity|]. destruct (convert a) as [g| | |]; cbn [obind]; try reflexivity. cbv zeta.
  match goal with |- context [if Qle_bool 1 ?r then (?x, [], g) else ?y] => destruct (if Qle_bool 1 r then (x, [], g) else y) as [[v1 v2] g1] end.
  destruct (Qeq_bool _ 0); [reflexivity|]. destruct (np_permute g1 (length v1)) as [p2 g2]. destruct (split_list _ _ _) as [x y].
  rewrite !(fun l => proj2 (Su l)). reflexivity.
Qed.
End Sets.
End Top.
