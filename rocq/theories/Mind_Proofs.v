From Verif Require Import Base PyStr_Model Mind_Model Mind_Spec Dl_Proofs.
From Coq Require Import String.
From Coq Require Import List.
Local Open Scope Z_scope.

Section Words.
Variable is_space : Z -> bool.
Notation tokens := (tokens is_space).
Notation solid w := (Forall (fun c => is_space c = false) w).

Lemma words_from_app cur : cur <> [] -> forall s, solid s -> forall rest,
  words_from is_space cur (s ++ rest) = words_from is_space (cur ++ s) rest.
Proof.
  intros N s. revert cur N. induction s as [|c s IH]; intros cur N F rest; cbn [app].
  - now rewrite app_nil_r.
  - inversion F as [|? ? F1 F2]; subst. cbn [words_from]. rewrite F1. rewrite IH; auto.
    + now rewrite <- app_assoc.
    + now destruct cur.
Qed.
Lemma words_blank s : forall rest, Forall (fun c => is_space c = true) s ->
  words_from is_space [] (s ++ rest) = words_from is_space [] rest.
Proof. induction s as [|c s IH]; intros rest F; [reflexivity|]. inversion F; subst. cbn. rewrite H1. now apply IH. Qed.

Lemma words_spec s ws : tokens s ws -> words is_space s = ws.
Proof.
  unfold words. induction 1 as [s F | blank w rest ws Fb Nw Fw Hr T IH].
  - rewrite <- (app_nil_r s). now rewrite words_blank.
  - rewrite words_blank by auto. destruct w as [|c w]; [contradiction|].
    pose proof (Forall_inv Fw) as F1. pose proof (Forall_inv_tail Fw) as F2.
    cbn [app words_from]. cbn beta in F1. rewrite F1. cbn [app].
    rewrite words_from_app by (auto; discriminate). cbn [app].
    destruct rest as [|d rest].
    + cbn in *. rewrite IH. reflexivity.
    + cbn [words_from]. rewrite (Hr d eq_refl). cbn [words_from] in IH.
      rewrite (Hr d eq_refl) in IH. now rewrite IH.
Qed.

Lemma take_solid s : exists w rest, s = w ++ rest /\ solid w /\ (forall c, hd_error rest = Some c -> is_space c = true).
Proof.
  induction s as [|c s (w & rest & -> & F & H)].
  - exists [], []. split; auto. split; [constructor | discriminate].
  - destruct (is_space c) eqn:E.
    + exists [], (c :: w ++ rest). split; auto. split; [constructor|]. intros d [= <-]; auto.
    + exists (c :: w), rest. split; auto.
Qed.
Lemma take_blank s : exists b rest, s = b ++ rest /\ Forall (fun c => is_space c = true) b /\
  (forall c, hd_error rest = Some c -> is_space c = false).
Proof.
  induction s as [|c s (b & rest & -> & F & H)].
  - exists [], []. split; auto. split; [constructor | discriminate].
  - destruct (is_space c) eqn:E.
    + exists (c :: b), rest. split; auto.
    + exists [], (c :: b ++ rest). split; auto. split; [constructor|]. intros d [= <-]; auto.
Qed.
Lemma tokens_exist_len : forall n s, (length s <= n)%nat -> exists ws, tokens s ws.
Proof.
  induction n as [|n IH]; intros s L.
  - destruct s; [|cbn in L; lia]. exists []. constructor. constructor.
  - destruct (take_blank s) as (b & r1 & -> & Fb & H1).
    destruct r1 as [|c r1].
    + exists []. constructor. now rewrite app_nil_r.
    + destruct (take_solid (c :: r1)) as (w & rest & E & Fw & H2).
      destruct w as [|d w].
      { cbn in E. subst rest. specialize (H1 c eq_refl). specialize (H2 c eq_refl). congruence. }
      assert (Lr : (length rest <= n)%nat).
      { rewrite E in L. rewrite !app_length in L. cbn [length] in L. lia. }
      destruct (IH rest Lr) as (ws & T).
      rewrite E. exists ((d :: w) :: ws). apply tokens_more; auto. discriminate.
Qed.
Lemma tokens_words s : tokens s (words is_space s).
Proof.
  destruct (tokens_exist_len (length s) s (le_n _)) as (ws & T). now rewrite (words_spec s ws T).
Qed.
Lemma tokens_unique s a b : tokens s a -> tokens s b -> a = b.
Proof. intros A B. rewrite <- (words_spec s a A). now apply words_spec. Qed.
End Words.

Lemma rsplit1_none s : rsplit1 s = None -> ~ In 45 s.
Proof.
  induction s as [|c s IH]; cbn; [tauto|]. destruct (rsplit1 s) as [[a b]|]; [discriminate|].
  destruct (c =? 45) eqn:E; [discriminate|]. apply Z.eqb_neq in E. intros _ [H|H]; [congruence|]. now apply IH.
Qed.
Lemma rsplit1_some s a b : rsplit1 s = Some (a, b) -> labelled s a b.
Proof.
  revert a b. induction s as [|c s IH]; intros a b; cbn; [discriminate|].
  destruct (rsplit1 s) as [[a' b']|] eqn:E.
  - intros [= <- <-]. destruct (IH a' b' eq_refl) as [-> N]. split; auto.
  - destruct (c =? 45) eqn:C; [|discriminate]. intros [= <- <-]. apply Z.eqb_eq in C. subst c.
    split; auto. now apply rsplit1_none.
Qed.

(** ** Frames *)
Section Frames.
Variable is_space : Z -> bool.
Notation explode := (explode is_space).
Notation candidates := (candidates is_space).

Lemma cumcount_length : forall ids seen, length (cumcount seen ids) = length ids.
Proof. induction ids; intros seen; cbn; auto. Qed.
Lemma cumcount_nth : forall ids seen k, (k < length ids)%nat ->
  nth k (cumcount seen ids) 0%nat =
    (count_occ Z.eq_dec seen (nth k ids 0%Z) + count_occ Z.eq_dec (firstn k ids) (nth k ids 0%Z))%nat.
Proof.
  induction ids as [|i ids IH]; intros seen k L; [cbn in L; lia|].
  destruct k as [|k]; cbn [cumcount nth firstn]; [cbn; lia|].
  rewrite IH by (cbn in L; lia). cbn [count_occ].
  destruct (Z.eq_dec i (nth k ids 0)); lia.
Qed.

Definition row_at (split : pystr) (c : behavior * option pystr) (r : impression) : Prop :=
  exists pos, r = make_row split (c, pos).
Lemma combine_rows split cs : forall ps, length ps = length cs ->
  Forall2 (row_at split) cs (map (make_row split) (combine cs ps)).
Proof.
  induction cs as [|c cs IH]; intros [|p ps] L; try discriminate; cbn; constructor.
  - now exists p.
  - apply IH. now inversion L.
Qed.
Lemma is_click_spec l : is_click (Some l) = true <-> l = [49].
Proof. cbn [is_click]. rewrite pystr_eqb_eq. reflexivity. Qed.
Lemma row_at_some split b t r : row_at split (b, Some t) r -> row_of split b t r.
Proof.
  intros (pos & ->). cbn [make_row]. unfold row_of. cbn.
  repeat (split; [reflexivity|]).
  destruct (rsplit1 t) as [[a l]|] eqn:E; cbn.
  - left. exists a, l. split; [now apply rsplit1_some|]. split; [reflexivity|]. apply is_click_spec.
  - right. split; [now apply rsplit1_none|]. auto.
Qed.
Lemma row_at_none split b r : row_at split (b, None) r -> row_of_nothing split b r.
Proof. intros (pos & ->). repeat (split; [reflexivity|]). reflexivity. Qed.

Lemma rows_of_explode split b : forall rs,
  Forall2 (row_at split) (map (pair b) (explode (b_impressions b))) rs -> rows_of is_space split b rs.
Proof.
  intros rs H. unfold rows_of, Mind_Model.explode in *.
  destruct (b_impressions b) as [s|].
  - pose proof (tokens_words is_space s) as T. destruct (words is_space s) as [|w ws] eqn:E.
    + right. split; [right; eauto|]. cbn in H. inversion H as [|? r ? rs' R F]; subst. inversion F; subst.
      exists r. split; auto. now apply row_at_none.
    + left. exists s, (w :: ws). split; auto. split; auto. split; [discriminate|].
      clear T E. rewrite map_map in H. revert rs H. induction (w :: ws) as [|x l IH]; intros rs H; inversion H; subst; constructor; auto.
      now apply row_at_some.
  - right. split; [now left|]. cbn in H. inversion H as [|? r ? rs' R F]; subst. inversion F; subst.
    exists r. split; auto. now apply row_at_none.
Qed.

Lemma frame_groups split bs : forall rows, Forall2 (row_at split) (candidates bs) rows ->
  exists groups, rows = concat groups /\ Forall2 (rows_of is_space split) bs groups.
Proof.
  unfold Mind_Model.candidates. induction bs as [|b bs IH]; intros rows H; cbn in H.
  - inversion H; subst. exists []. split; [reflexivity | constructor].
  - apply Forall2_app_inv_l in H as (g & rest & Hg & Hr & ->).
    destruct (IH rest Hr) as (groups & -> & F). exists (g :: groups). split; [reflexivity|].
    constructor; auto. now apply rows_of_explode.
Qed.

Definition ids_of (cs : list (behavior * option pystr)) : list Z := map (fun c => b_id (fst c)) cs.
Definition frame_of (split : pystr) (bs : list behavior) : list impression :=
  map (make_row split) (combine (candidates bs) (cumcount [] (ids_of (candidates bs)))).
Notation has_label := (has_label is_space).

Lemma frame_rows split bs : Forall2 (row_at split) (candidates bs) (frame_of split bs).
Proof. apply combine_rows. rewrite cumcount_length. unfold ids_of. now rewrite map_length. Qed.

Lemma map_combine_fst {A B C} (f : A -> C) (l : list A) : forall m : list B, length m = length l ->
  map (fun x => f (fst x)) (combine l m) = map f l.
Proof. induction l; intros [|b m] L; try discriminate; cbn; auto. f_equal. apply IHl. now inversion L. Qed.
Lemma map_combine_snd {A B} (l : list A) : forall m : list B, length m = length l -> map snd (combine l m) = m.
Proof. induction l; intros [|b m] L; try discriminate; cbn; auto. f_equal. apply IHl. now inversion L. Qed.
Lemma frame_ids split bs : map i_id (frame_of split bs) = ids_of (candidates bs).
Proof.
  unfold frame_of. rewrite map_map.
  rewrite (map_ext _ (fun x => b_id (fst (fst x)))) by (intros [[b t] p]; reflexivity).
  apply (map_combine_fst (fun c => b_id (fst c))). rewrite cumcount_length. unfold ids_of. now rewrite map_length.
Qed.
Lemma frame_positions split bs : map i_position (frame_of split bs) = cumcount [] (ids_of (candidates bs)).
Proof.
  unfold frame_of. rewrite map_map.
  rewrite (map_ext _ snd) by (intros [[b t] p]; reflexivity).
  apply map_combine_snd. rewrite cumcount_length. unfold ids_of. now rewrite map_length.
Qed.
(** The position of a row counts the earlier rows of its impression. *)
Lemma frame_position split bs k r : nth_error (frame_of split bs) k = Some r ->
  i_position r = count_occ Z.eq_dec (map i_id (firstn k (frame_of split bs))) (i_id r).
Proof.
  intros E. assert (L : (k < length (frame_of split bs))%nat) by (apply nth_error_Some; congruence).
  assert (P : nth k (map i_position (frame_of split bs)) 0%nat = i_position r).
  { apply nth_error_nth. now rewrite nth_error_map, E. }
  assert (I : nth k (map i_id (frame_of split bs)) 0 = i_id r).
  { apply nth_error_nth. now rewrite nth_error_map, E. }
  assert (Lk : (k < length (ids_of (candidates bs)))%nat) by (rewrite <- (frame_ids split), map_length; exact L).
  rewrite frame_positions, (cumcount_nth _ [] k Lk) in P. cbn [count_occ Nat.add] in P.
  rewrite <- (frame_ids split bs) in P. rewrite I in P. rewrite <- P. now rewrite firstn_map.
Qed.

Lemma split_frame_ok split clicked bs : has_impressions bs -> has_label bs ->
  split_frame is_space split clicked bs =
    Ok (if clicked then filter i_clicked (frame_of split bs) else frame_of split bs).
Proof.
  intros (b & s & I & E) (b' & s' & ws & t & I' & E' & Tw & It & Dt).
  rewrite <- (words_spec is_space s' ws Tw) in It. unfold split_frame.
  destruct bs as [|b0 bs0]; [destruct I|]. set (bs := b0 :: bs0) in *.
  assert (H1 : forallb (fun b => match b_impressions b with None => true | Some _ => false end) bs = false).
  { apply not_true_is_false. intros H. rewrite forallb_forall in H. specialize (H b I). now rewrite E in H. }
  rewrite H1.
  assert (H2 : forallb (fun c => match snd (labels (snd c)) with None => true | Some _ => false end) (candidates bs) = false).
  { apply not_true_is_false. intros H. rewrite forallb_forall in H.
    assert (Ic : In (b', Some t) (candidates bs)).
    { unfold Mind_Model.candidates. apply in_flat_map. exists b'. split; auto. apply in_map.
      unfold Mind_Model.explode. rewrite E'. destruct (words is_space s'); [destruct It|]. now apply in_map. }
    specialize (H _ Ic). cbn in H. destruct (rsplit1 t) as [[x y]|] eqn:R; cbn in H; [discriminate|].
    now apply rsplit1_none in R. }
  rewrite H2. reflexivity.
Qed.
Lemma split_frame_errors split clicked bs :
  (bs = [] -> split_frame is_space split clicked bs = Fail ValueError) /\
  (bs <> [] -> ~ has_impressions bs -> split_frame is_space split clicked bs = Fail AttributeError) /\
  (has_impressions bs -> ~ has_label bs -> split_frame is_space split clicked bs = Fail KeyError).
Proof.
  split; [now intros ->|]. unfold split_frame. split.
  - intros N H. destruct bs as [|b0 bs0]; [contradiction|]. set (bs := b0 :: bs0) in *.
    assert (H1 : forallb (fun b => match b_impressions b with None => true | Some _ => false end) bs = true).
    { apply forallb_forall. intros b I. destruct (b_impressions b) eqn:E; auto. exfalso. apply H. exists b. eauto. }
    now rewrite H1.
  - intros (b & s & I & E) H. destruct bs as [|b0 bs0]; [destruct I|]. set (bs := b0 :: bs0) in *.
    assert (H1 : forallb (fun b => match b_impressions b with None => true | Some _ => false end) bs = false).
    { apply not_true_is_false. intros H1. rewrite forallb_forall in H1. specialize (H1 b I). now rewrite E in H1. }
    rewrite H1.
    assert (H2 : forallb (fun c => match snd (labels (snd c)) with None => true | Some _ => false end) (candidates bs) = true).
    { apply forallb_forall. intros [b' t] Ic. unfold Mind_Model.candidates in Ic.
      apply in_flat_map in Ic as (b2 & I2 & Ic). apply in_map_iff in Ic as (t2 & [= <- <-] & Ic). cbn.
      destruct t2 as [t2|]; [|reflexivity]. cbn.
      unfold Mind_Model.explode in Ic. destruct (b_impressions b2) as [s2|] eqn:E2; [|destruct Ic as [|[]]; discriminate].
      assert (W : In t2 (words is_space s2)).
      { destruct (words is_space s2) as [|w ws]; [destruct Ic as [|[]]; discriminate|].
        apply in_map_iff in Ic as (? & [= ->] & ?). auto. }
      destruct (rsplit1 t2) as [[x y]|] eqn:R; auto. exfalso. apply H. exists b2, s2, (words is_space s2), t2.
      apply rsplit1_some in R as [-> _]. repeat split; auto; [apply tokens_words | apply in_or_app; right; now left]. }
    now rewrite H2.
Qed.

Variable log : pystr -> list behavior.
Lemma frames_filter splits :
  frames is_space log true splits = omap (filter i_clicked) (frames is_space log false splits).
Proof.
  induction splits as [|s l IH]; [reflexivity|]. cbn [frames].
  assert (E : split_frame is_space s true (log s) = omap (filter i_clicked) (split_frame is_space s false (log s))).
  { unfold split_frame. destruct (log s); [reflexivity|]. destruct (forallb _ _); [reflexivity|].
    destruct (forallb _ _); reflexivity. }
  rewrite E, IH. destruct (split_frame is_space s false (log s)) as [f| | |]; cbn; auto.
  destruct (frames is_space log false l) as [r| | |]; cbn; auto. now rewrite filter_app.
Qed.
Lemma interaction_filter split :
  read_interaction is_space log split =
  omap (fun rows => map (fun r => (i_id r, i_user r, i_time r, i_item r, i_split r)) (filter i_clicked rows))
    (read_impressions is_space log split false).
Proof.
  unfold read_interaction, read_impressions. destruct (iter_splits split) as [l| | |]; cbn [obind omap]; auto.
  rewrite frames_filter. destruct (frames is_space log false l); reflexivity.
Qed.
Lemma impressions_clicked split :
  read_impressions is_space log split true = omap (filter i_clicked) (read_impressions is_space log split false).
Proof.
  unfold read_impressions. destruct (iter_splits split) as [l| | |]; cbn [obind omap]; auto. apply frames_filter.
Qed.
Lemma impressions_one split : In split valid_splits -> has_impressions (log split) -> has_label (log split) ->
  read_impressions is_space log (Some split) false = Ok (frame_of split (log split)).
Proof.
  intros V H1 H2. unfold read_impressions, iter_splits.
  assert (E : existsb (pystr_eqb split) valid_splits = true).
  { apply existsb_exists. exists split. split; auto. now apply pystr_eqb_eq. }
  rewrite E. cbn [obind frames]. rewrite split_frame_ok by auto. cbn. now rewrite app_nil_r.
Qed.
Lemma impressions_both :
  read_impressions is_space log None false =
  obind (read_impressions is_space log (Some (str "train"%string)) false) (fun a =>
  obind (read_impressions is_space log (Some (str "dev"%string)) false) (fun b => Ok (a ++ b))).
Proof.
  unfold read_impressions, iter_splits. cbn [obind frames valid_splits].
  change (existsb (pystr_eqb (str "train"%string)) valid_splits) with true.
  change (existsb (pystr_eqb (str "dev"%string)) valid_splits) with true. cbn [obind frames].
  destruct (split_frame is_space (str "train"%string) false (log (str "train"%string))); cbn [obind omap]; try reflexivity.
  destruct (split_frame is_space (str "dev"%string) false (log (str "dev"%string))); cbn [obind omap]; try reflexivity.
  now rewrite !app_nil_r.
Qed.
Lemma impressions_invalid split c : ~ In split valid_splits ->
  read_impressions is_space log (Some split) c = Fail ValueError.
Proof.
  intros N. unfold read_impressions, iter_splits.
  assert (E : existsb (pystr_eqb split) valid_splits = false).
  { apply not_true_is_false. intros H. apply existsb_exists in H as (x & I & E). apply pystr_eqb_eq in E. now subst. }
  now rewrite E.
Qed.
End Frames.

(** With distinct impression ids the position is the place in the impression. *)
Section Positions.
Variable is_space : Z -> bool.
Lemma cumcount_app : forall a seen b, cumcount seen (a ++ b) = cumcount seen a ++ cumcount (rev a ++ seen) b.
Proof.
  induction a as [|x a IH]; intros seen b; [reflexivity|]. cbn [app cumcount rev]. rewrite IH.
  now rewrite <- app_assoc.
Qed.
Lemma cumcount_repeat x : forall n seen,
  cumcount seen (repeat x n) = map (fun k => (count_occ Z.eq_dec seen x + k)%nat) (seq 0 n).
Proof.
  induction n as [|n IH]; intros seen; [reflexivity|]. cbn [repeat cumcount]. rewrite IH.
  cbn [seq map]. f_equal; [lia|]. rewrite <- seq_shift, map_map. apply map_ext. intros k.
  cbn [count_occ]. destruct (Z.eq_dec x x); [lia | contradiction].
Qed.
Lemma count_occ_none (x : Z) l : ~ In x l -> count_occ Z.eq_dec l x = 0%nat.
Proof. intros H. now apply count_occ_not_In. Qed.
Lemma map_const {A B} (c : B) (l : list A) : map (fun _ => c) l = repeat c (length l).
Proof. induction l; cbn; congruence. Qed.
Lemma positions_distinct : forall bs seen, NoDup (map b_id bs) ->
  (forall b, In b bs -> ~ In (b_id b) seen) ->
  cumcount seen (ids_of (candidates is_space bs)) =
  flat_map (fun b => seq 0 (length (explode is_space (b_impressions b)))) bs.
Proof.
  induction bs as [|b bs IH]; intros seen N H; [reflexivity|].
  cbn in N. inversion N as [|? ? N1 N2]; subst.
  unfold candidates, ids_of in *. cbn [flat_map]. rewrite map_app, cumcount_app.
  rewrite map_map. cbn [fst]. rewrite map_const.
  rewrite cumcount_repeat. rewrite (count_occ_none _ seen) by (apply H; now left).
  f_equal.
  - rewrite <- map_id. apply map_ext. intros k. lia.
  - apply IH; auto. intros b' I HI. apply in_app_or in HI as [HI|HI].
    + apply in_rev in HI. apply repeat_spec in HI. apply N1. rewrite <- HI. now apply in_map.
    + apply (H b'); [now right | exact HI].
Qed.
Lemma Forall2_length {A B} (R : A -> B -> Prop) l l' : Forall2 R l l' -> length l = length l'.
Proof. induction 1; cbn; congruence. Qed.
Lemma rows_of_length split b g : rows_of is_space split b g -> length g = length (explode is_space (b_impressions b)).
Proof.
  unfold explode. intros [(s & ws & -> & T & N & F) | [[->|(s & -> & T)] (r & -> & _)]]; [| reflexivity |].
  - rewrite (words_spec is_space s ws T). rewrite <- (Forall2_length _ _ _ F).
    destruct ws; [contradiction | now rewrite map_length].
  - now rewrite (words_spec is_space s [] T).
Qed.
Lemma groups_lengths split bs groups : Forall2 (rows_of is_space split) bs groups ->
  flat_map (fun b => seq 0 (length (explode is_space (b_impressions b)))) bs = flat_map (fun g => seq 0 (length g)) groups.
Proof.
  induction 1 as [|b g bs groups R F IH]; [reflexivity|]. cbn [flat_map]. rewrite IH. now rewrite (rows_of_length split b g R).
Qed.
Lemma frame_positions_distinct split bs : NoDup (map b_id bs) ->
  map i_position (frame_of is_space split bs) =
  flat_map (fun b => seq 0 (length (explode is_space (b_impressions b)))) bs.
Proof. intros N. rewrite frame_positions. apply positions_distinct; auto. Qed.
End Positions.

(** ** Members of an archive *)
Lemma is_suffix_spec x s : is_suffix x s = true <-> exists p, s = p ++ x.
Proof.
  induction s as [|c s IH]; cbn [is_suffix]; rewrite orb_true_iff, pystr_eqb_eq.
  - split; [intros [->|]; [now exists [] | discriminate] | intros (p & E)].
    symmetry in E. apply app_eq_nil in E as [_ ->]. now left.
  - rewrite IH. split.
    + intros [->|(p & ->)]; [now exists [] | now exists (c :: p)].
    + intros ([|d p] & E); cbn in E; [now left|]. inversion E; subst. right. now exists p.
Qed.
Lemma locate_spec names path m : NoDup names ->
  (locate names path = Ok m <->
   In m names /\ (m = path \/
     (~ In path names /\ (exists d, m = d ++ 47 :: path) /\
      forall m', In m' names -> (exists d, m' = d ++ 47 :: path) -> m' = m))).
Proof.
  intros ND. unfold locate. destruct (existsb (pystr_eqb path) names) eqn:E.
  - apply existsb_exists in E as (x & I & X). apply pystr_eqb_eq in X. subst x. split.
    + intros [= <-]. auto.
    + intros (Im & [->|(N & _)]); [reflexivity | contradiction].
  - assert (N : ~ In path names).
    { intros I. apply not_true_iff_false in E. apply E. apply existsb_exists. exists path. split; auto. now apply pystr_eqb_eq. }
    assert (S : forall x, In x (filter (is_suffix (str "/"%string ++ path)) names) <->
                 In x names /\ exists d, x = d ++ 47 :: path).
    { intros x. rewrite filter_In, is_suffix_spec. reflexivity. }
    pose proof (NoDup_filter (is_suffix (str "/"%string ++ path)) ND) as NF.
    destruct (filter (is_suffix (str "/"%string ++ path)) names) as [|y [|z l]] eqn:F.
    + split; [discriminate|]. intros (Im & [->|(_ & D & _)]); [contradiction|].
      destruct (proj2 (S m) (conj Im D)).
    + split.
      * intros [= <-]. destruct (proj1 (S y) (or_introl eq_refl)) as [Iy Dy]. split; auto. right. split; auto. split; auto.
        intros m' Im' D'. destruct (proj2 (S m') (conj Im' D')) as [|[]]; auto.
      * intros (Im & [->|(_ & D & U)]); [contradiction|].
        destruct (proj2 (S m) (conj Im D)) as [->|[]]. reflexivity.
    + split; [discriminate|]. intros (Im & [->|(_ & D & U)]); [contradiction|]. exfalso.
      destruct (proj1 (S y) (or_introl eq_refl)) as [Iy Dy].
      destruct (proj1 (S z) (or_intror (or_introl eq_refl))) as [Iz Dz].
      pose proof (U y Iy Dy) as Ey. pose proof (U z Iz Dz) as Ez.
      inversion NF as [|? ? NI _]; subst. apply NI. left. congruence.
Qed.

(** ** NeuMF *)
Section NeuMF.
Variable digit_value : Z -> option Z.
Variable is_space : Z -> bool.
Variable max_digits : nat.
Hypothesis tables : ascii_ok digit_value is_space.

Lemma digit_char c : 48 <= c <= 57 -> digit_value c = Some (c - 48).
Proof. intros H. replace c with (48 + (c - 48)) at 1 by lia. apply (ao_digit _ _ tables). lia. Qed.
Lemma digit_is c : 48 <= c <= 57 -> is_digit digit_value c = true.
Proof. intros H. unfold is_digit. now rewrite digit_char. Qed.
Lemma mark_is c : In c [40; 41; 44; 9; 10] -> is_digit digit_value c = false.
Proof. intros H. unfold is_digit. now rewrite (ao_mark _ _ tables). Qed.
Lemma solid_is c : 40 <= c <= 57 -> is_space c = false.
Proof. apply (ao_solid _ _ tables). Qed.

Lemma span_app p w : forall rest, Forall (fun c => p c = true) w ->
  (forall c, hd_error rest = Some c -> p c = false) -> span p (w ++ rest) = (w, rest).
Proof.
  induction w as [|c w IH]; intros rest F H; cbn [app span].
  - destruct rest as [|c rest]; [reflexivity|]. cbn. now rewrite (H c eq_refl).
  - inversion F; subst. rewrite H2. now rewrite IH.
Qed.
Lemma number_digits n : ascii_number n -> Forall (fun c => is_digit digit_value c = true) n.
Proof. intros [_ F]. eapply Forall_impl; [|exact F]. intros c. apply digit_is. Qed.
Lemma span_solid n rest : ascii_number n -> span is_space (n ++ rest) = ([], n ++ rest).
Proof.
  intros [N F]. destruct n as [|c n]; [contradiction|]. apply (span_app is_space [] ((c :: n) ++ rest)); [constructor|].
  intros d [= <-]. apply solid_is. inversion F; subst. lia.
Qed.
Lemma span_mark m rest : 40 <= m <= 57 -> span is_space (m :: rest) = ([], m :: rest).
Proof. intros H. apply (span_app is_space [] (m :: rest)); [constructor|]. intros d [= <-]. now apply solid_is. Qed.
Lemma digits1_app n rest : ascii_number n -> (forall c, hd_error rest = Some c -> is_digit digit_value c = false) ->
  digits1 digit_value (n ++ rest) = Some (n, rest).
Proof.
  intros A H. unfold digits1. rewrite span_app; auto; [|now apply number_digits].
  destruct A as [N _]. now destruct n.
Qed.
Definition tail_of (negs : list pystr) : pystr := flat_map (fun n => 9 :: n) negs ++ [10].

Lemma match_line u i negs : ascii_number u -> ascii_number i ->
  match_prefix digit_value is_space (neumf_line u i negs) = Some (u, i, tail_of negs).
Proof.
  intros U I. unfold neumf_line, match_prefix. cbn [app expect]. rewrite Z.eqb_refl.
  rewrite span_solid by auto. cbn [snd].
  rewrite digits1_app; auto; [|intros c [= <-]; apply mark_is; cbn; auto].
  rewrite span_mark by lia. cbn [snd expect]. rewrite Z.eqb_refl.
  rewrite span_solid by auto. cbn [snd].
  rewrite digits1_app; auto; [|intros c [= <-]; apply mark_is; cbn; auto].
  rewrite span_mark by lia. cbn [snd expect]. rewrite Z.eqb_refl. reflexivity.
Qed.
Lemma no_match s : ~ In 40 s -> match_prefix digit_value is_space s = None.
Proof.
  intros N. unfold match_prefix, expect. destruct s as [|c s]; [reflexivity|].
  destruct (c =? 40) eqn:E; [|reflexivity]. apply Z.eqb_eq in E. subst. elim N. now left.
Qed.
Lemma sub_none : forall f s, ~ In 40 s -> sub_prefix digit_value is_space f s = s.
Proof.
  induction f as [|f IH]; intros s N; [reflexivity|]. cbn [sub_prefix]. rewrite no_match by auto.
  destruct s as [|c s]; [reflexivity|]. f_equal. apply IH. intros H. apply N. now right.
Qed.
Lemma tail_no_paren negs : Forall ascii_number negs -> ~ In 40 (tail_of negs).
Proof.
  intros F H. unfold tail_of in H. apply in_app_or in H as [H|[H|[]]]; [|discriminate].
  apply in_flat_map in H as (n & I & [H|H]); [discriminate|].
  rewrite Forall_forall in F. destruct (F n I) as [_ D]. rewrite Forall_forall in D. specialize (D 40 H). lia.
Qed.

Lemma lstrip_solid s : (forall c, hd_error s = Some c -> is_space c = false) -> lstrip is_space s = s.
Proof. destruct s as [|c s]; [reflexivity|]. intros H. cbn. now rewrite (H c eq_refl). Qed.
Definition joined (n : pystr) (negs : list pystr) : pystr := n ++ flat_map (fun n => 9 :: n) negs.
Lemma number_snoc n : ascii_number n -> exists a c, n = a ++ [c] /\ 48 <= c <= 57.
Proof.
  intros [N F]. destruct (exists_last N) as (a & c & ->). exists a, c. split; auto.
  apply Forall_app in F as [_ F]. now inversion F.
Qed.
Lemma joined_last n negs : ascii_number n -> Forall ascii_number negs ->
  exists a c, joined n negs = a ++ [c] /\ 48 <= c <= 57.
Proof.
  intros A F. destruct negs as [|m l] eqn:E.
  - unfold joined. cbn. rewrite app_nil_r. now apply number_snoc.
  - rewrite <- E in *. assert (Ne : negs <> []) by congruence. clear E.
    destruct (exists_last Ne) as (l' & z & ->). apply Forall_app in F as [_ F]. inversion F; subst.
    destruct (number_snoc z H1) as (a & c & -> & C). exists (n ++ flat_map (fun n => 9 :: n) l' ++ 9 :: a), c. split; auto.
    unfold joined. rewrite flat_map_app. cbn. rewrite app_nil_r. now rewrite <- !app_assoc.
Qed.
Lemma strip_tail n negs : ascii_number n -> Forall ascii_number negs ->
  strip is_space (tail_of (n :: negs)) = joined n negs.
Proof.
  intros A F. unfold strip, tail_of. cbn [flat_map app]. cbn [lstrip]. rewrite (proj1 (ao_blank _ _ tables)).
  rewrite <- app_assoc. rewrite (lstrip_solid (n ++ flat_map (fun n => 9 :: n) negs ++ [10])).
  2:{ destruct A as [N D]. destruct n as [|c n]; [contradiction|]. intros d [= <-]. apply solid_is. inversion D; subst. lia. }
  change (n ++ flat_map (fun n => 9 :: n) negs ++ [10]) with (n ++ (flat_map (fun n => 9 :: n) negs ++ [10])).
  rewrite app_assoc. change (n ++ flat_map (fun n => 9 :: n) negs) with (joined n negs).
  rewrite rev_app_distr. cbn [rev app lstrip]. rewrite (proj2 (ao_blank _ _ tables)).
  destruct (joined_last n negs A F) as (a & c & -> & C).
  rewrite rev_app_distr. cbn [rev app]. rewrite lstrip_solid by (intros d [= <-]; apply solid_is; lia).
  cbn [rev]. now rewrite rev_involutive.
Qed.
Lemma split_tab_word n : forall rest, ~ In 9 n -> (rest = [] \/ exists r, rest = 9 :: r) ->
  split_tab (n ++ rest) = match rest with [] => [n] | _ :: r => n :: split_tab r end.
Proof.
  induction n as [|c n IH]; intros rest N H; cbn [app].
  - destruct H as [->|(r & ->)]; [reflexivity|]. cbn [split_tab]. now rewrite Z.eqb_refl.
  - cbn [split_tab]. destruct (c =? 9) eqn:E; [apply Z.eqb_eq in E; subst; elim N; now left|].
    rewrite IH by (auto; intros I; apply N; now right). destruct rest; reflexivity.
Qed.
Lemma number_no_tab n : ascii_number n -> ~ In 9 n.
Proof. intros [_ F] H. rewrite Forall_forall in F. specialize (F 9 H). lia. Qed.
Lemma split_joined : forall negs n, ascii_number n -> Forall ascii_number negs ->
  split_tab (joined n negs) = n :: negs.
Proof.
  induction negs as [|m l IH]; intros n A F; unfold joined; cbn [flat_map].
  - rewrite split_tab_word; auto. now apply number_no_tab.
  - inversion F; subst. cbn [app]. rewrite split_tab_word; [|now apply number_no_tab|right; eauto].
    f_equal. now apply IH.
Qed.

Lemma int_body_number n : forall b, Forall (fun c => 48 <= c <= 57) n -> (b = true \/ n <> []) ->
  int_body digit_value b n = Some (map (fun c => c - 48) n).
Proof.
  induction n as [|c n IH]; intros b F H; cbn [int_body map].
  - destruct H as [->|]; [reflexivity | contradiction].
  - inversion F; subst. rewrite digit_char by auto. rewrite IH; auto.
Qed.
Lemma horner_value n : horner (map (fun c => c - 48) n) = value n.
Proof.
  unfold horner, value. generalize 0. induction n as [|c n IH]; intros a; [reflexivity|]. cbn. apply IH.
Qed.
Lemma strip_number n : ascii_number n -> strip is_space n = n.
Proof.
  intros A. unfold strip. rewrite (lstrip_solid n).
  2:{ destruct A as [N D]. destruct n as [|c n]; [contradiction|]. intros d [= <-]. apply solid_is. inversion D; subst. lia. }
  destruct (number_snoc n A) as (a & c & -> & C).
  rewrite rev_app_distr. cbn [rev app]. rewrite lstrip_solid by (intros d [= <-]; apply solid_is; lia).
  cbn [rev]. now rewrite rev_involutive.
Qed.
Lemma parse_number n : ascii_number n -> (length n <= max_digits)%nat ->
  parse_int digit_value is_space max_digits n = Ok (value n).
Proof.
  intros A L. unfold parse_int, py_int. rewrite strip_number by auto. destruct A as [N F].
  assert (U : unsigned_int digit_value max_digits n = Some (value n)).
  { unfold unsigned_int. rewrite int_body_number by auto. rewrite map_length.
    destruct (max_digits <? length n)%nat eqn:E; [apply Nat.ltb_lt in E; lia|]. now rewrite horner_value. }
  destruct n as [|c n]; [contradiction|].
  assert (C : 48 <= c <= 57) by (now inversion F).
  destruct c as [|p|p]; try lia.
  do 6 (destruct p as [p|p|]; try (rewrite U; reflexivity); try lia).
Qed.
Lemma parse_numbers l : Forall (fun n => ascii_number n /\ (length n <= max_digits)%nat) l ->
  parse_ints digit_value is_space max_digits l = Ok (map value l).
Proof.
  induction 1 as [|n l [A L] _ IH]; [reflexivity|]. cbn [parse_ints map].
  rewrite parse_number by auto. cbn [obind]. now rewrite IH.
Qed.

Notation fits := (fits max_digits).
Lemma test_line_ok u i n negs : fits u -> fits i -> Forall fits (n :: negs) ->
  test_line digit_value is_space max_digits (neumf_line u i (n :: negs)) =
  Ok ((value u, value i, true) :: map (fun x => (value u, value x, false)) (n :: negs)).
Proof.
  intros [U Lu] [I Li] F.
  assert (Fa : Forall ascii_number (n :: negs)) by (eapply Forall_impl; [|exact F]; now intros ? []).
  inversion Fa as [|? ? A Fn]; subst.
  unfold test_line.
  assert (S : search_prefix digit_value is_space (neumf_line u i (n :: negs)) = Some (u, i)).
  { pose proof (match_line u i (n :: negs) U I) as M. destruct (neumf_line u i (n :: negs)); cbn [search_prefix]; now rewrite M. }
  rewrite S. rewrite !parse_number by auto. cbn [obind sub_prefix]. rewrite match_line by auto.
  rewrite sub_none by now apply tail_no_paren. rewrite strip_tail by auto. rewrite split_joined by auto.
  rewrite parse_numbers by exact F. cbn [omap obind]. now rewrite map_map.
Qed.
Lemma test_line_no_negatives u i : fits u -> fits i ->
  test_line digit_value is_space max_digits (neumf_line u i []) = Fail ValueError.
Proof.
  intros [U Lu] [I Li]. unfold test_line.
  assert (S : search_prefix digit_value is_space (neumf_line u i []) = Some (u, i)).
  { pose proof (match_line u i [] U I) as M. destruct (neumf_line u i []); cbn [search_prefix]; now rewrite M. }
  rewrite S. rewrite !parse_number by auto. cbn [obind sub_prefix]. rewrite match_line by auto.
  rewrite sub_none by (apply tail_no_paren; constructor).
  unfold tail_of. cbn [flat_map app]. unfold strip. cbn [lstrip]. rewrite (proj2 (ao_blank _ _ tables)). reflexivity.
Qed.
Notation good_entry := (good_entry max_digits).
Lemma test_rows_ok es : Forall good_entry es ->
  test_rows digit_value is_space max_digits (map line_of es) = Ok (flat_map rows_of_line es).
Proof.
  induction 1 as [|e es (U & I & N & F) _ IH]; [reflexivity|]. cbn [map test_rows flat_map].
  destruct e as [[u i] negs]. unfold line_of at 1. cbn [fst snd] in *. destruct negs as [|n negs]; [contradiction|].
  rewrite test_line_ok by auto. cbn [obind]. now rewrite IH.
Qed.
End NeuMF.

(** drop_duplicates keeps the first row of every pair. *)
Definition key_seen (seen : list (Z * Z)) (r : test_row) : bool :=
  existsb (fun k => (fst k =? fst (fst r)) && (snd k =? snd (fst r))) seen.
Lemma key_seen_spec seen r : key_seen seen r = true <-> In (fst r) seen.
Proof.
  unfold key_seen. rewrite existsb_exists. destruct r as [[u i] b]. cbn. split.
  - intros ([x y] & I & H). apply andb_true_iff in H as [H1 H2]. apply Z.eqb_eq in H1, H2. cbn in *. now subst.
  - intros I. exists (u, i). split; auto. cbn. now rewrite !Z.eqb_refl.
Qed.
Lemma dedup_in : forall l seen r, In r (dedup seen l) <->
  exists a b, l = a ++ r :: b /\ ~ In (fst r) seen /\ ~ In (fst r) (map fst a).
Proof.
  induction l as [|x l IH]; intros seen r; cbn [dedup].
  - split; [intros [] | intros (a & b & E & _)]. now destruct a.
  - change (existsb (fun k => (fst k =? fst (fst x)) && (snd k =? snd (fst x))) seen) with (key_seen seen x).
    destruct (key_seen seen x) eqn:E.
    + apply key_seen_spec in E. rewrite IH. split.
      * intros (a & b & -> & H1 & H2). exists (x :: a), b. split; auto. split; auto.
        cbn. intros [H|H]; [apply H1; now rewrite <- H | contradiction].
      * intros (a & b & EQ & H1 & H2). destruct a as [|y a]; cbn in EQ; inversion EQ; subst; [contradiction|].
        exists a, b. split; auto. split; auto. intros H. apply H2. now right.
    + assert (NS : ~ In (fst x) seen) by (intros H; apply key_seen_spec in H; congruence).
      cbn [In]. rewrite IH. split.
      * intros [<-|(a & b & -> & H1 & H2)].
        -- exists [], l. auto.
        -- exists (x :: a), b. split; auto. split; [intros H; apply H1; now right|].
           cbn. intros [H|H]; [apply H1; left; auto | contradiction].
      * intros (a & b & EQ & H1 & H2). destruct a as [|y a]; cbn in EQ; inversion EQ; subst; [now left|].
        right. exists a, b. split; auto. split; [|intros H; apply H2; now right].
        intros [H|H]; [apply H2; now left | contradiction].
Qed.
Lemma dedup_nodup : forall l seen, NoDup (map fst (dedup seen l)).
Proof.
  induction l as [|x l IH]; intros seen; cbn [dedup]; [constructor|].
  destruct (existsb _ seen); [apply IH|]. cbn [map]. constructor; [|apply IH].
  intros H. apply in_map_iff in H as (r & E & H). apply dedup_in in H as (a & b & _ & N & _). apply N. left. auto.
Qed.

(** ** Together *)
Lemma impressions_spec is_space log split : In split valid_splits ->
  has_impressions (log split) -> has_label is_space (log split) ->
  exists rows groups, read_impressions is_space log (Some split) false = Ok rows /\
    rows = concat groups /\ Forall2 (rows_of is_space split) (log split) groups /\
    (forall k r, nth_error rows k = Some r ->
       i_position r = count_occ Z.eq_dec (map i_id (firstn k rows)) (i_id r)) /\
    (NoDup (map b_id (log split)) -> map i_position rows = flat_map (fun g => seq 0 (length g)) groups).
Proof.
  intros V H1 H2. exists (frame_of is_space split (log split)).
  destruct (frame_groups is_space split (log split) _ (frame_rows is_space split (log split))) as (groups & E & F).
  exists groups. split; [now apply impressions_one|]. split; [exact E|]. split; [exact F|].
  split; [intros k r; apply frame_position|].
  intros N. rewrite frame_positions_distinct by auto. now apply (groups_lengths is_space split).
Qed.
Lemma impressions_errors is_space log split c : In split valid_splits ->
  (log split = [] -> read_impressions is_space log (Some split) c = Fail ValueError) /\
  (log split <> [] -> ~ has_impressions (log split) -> read_impressions is_space log (Some split) c = Fail AttributeError) /\
  (has_impressions (log split) -> ~ has_label is_space (log split) -> read_impressions is_space log (Some split) c = Fail KeyError).
Proof.
  intros V. unfold read_impressions, iter_splits.
  assert (E : existsb (pystr_eqb split) valid_splits = true).
  { apply existsb_exists. exists split. split; auto. now apply pystr_eqb_eq. }
  rewrite E. cbn [obind frames].
  destruct (split_frame_errors is_space split c (log split)) as (A & B & C).
  split; [|split]; intros; [rewrite A | rewrite B | rewrite C]; auto.
Qed.
Lemma read_test_spec digit_value is_space max_digits : ascii_ok digit_value is_space -> forall es,
  Forall (good_entry max_digits) es ->
  exists rows, read_test digit_value is_space max_digits (map line_of es) = Ok rows /\
    NoDup (map fst rows) /\
    forall r, In r rows <-> exists a b, flat_map rows_of_line es = a ++ r :: b /\ ~ In (fst r) (map fst a).
Proof.
  intros T es F. unfold read_test. rewrite (test_rows_ok digit_value is_space max_digits T es F).
  exists (dedup [] (flat_map rows_of_line es)). split; [reflexivity|]. split; [apply dedup_nodup|].
  intros r. rewrite dedup_in. split.
  - intros (a & b & E & _ & N). eauto.
  - intros (a & b & E & N). exists a, b. split; [exact E|]. split; [intros [] | exact N].
Qed.
