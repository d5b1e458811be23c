(** Lemmas about the scoring interface. *)
From Coq Require Import QArith Lqa Lia.
From Verif Require Import Base Eval_Model Score_Model Score_Spec.
Local Open Scope nat_scope.

(** ** Sums *)
Definition lsum (l : list Q) : Q := fold_right Qplus 0%Q l.
Lemma fold_lsum l a : (fold_left Qplus l a == a + lsum l)%Q.
Proof. revert a; induction l as [|x l IH]; intros a; cbn [fold_left lsum fold_right]; [ring|]. rewrite IH. unfold lsum. ring. Qed.
Lemma qsum_ext n f g : (forall k, k < n -> (f k == g k)%Q) -> (qsum n f == qsum n g)%Q.
Proof. induction n as [|n IH]; intros H; cbn [qsum]; [reflexivity|]. rewrite IH, H by (auto with arith); reflexivity. Qed.
Lemma qsum_add n f g : (qsum n (fun k => f k + g k) == qsum n f + qsum n g)%Q.
Proof. induction n as [|n IH]; cbn [qsum]; [ring|]. rewrite IH; ring. Qed.
Lemma qsum_0 n : (qsum n (fun _ => 0) == 0)%Q.
Proof. induction n as [|n IH]; cbn [qsum]; [reflexivity|]. rewrite IH; ring. Qed.
Lemma qsum_single n c v (g : nat -> Q) : c < n -> (qsum n (fun k => (if c =? k then v else 0) * g k) == v * g c)%Q.
Proof.
  induction n as [|n IH]; intros H; [lia|]. cbn [qsum].
  destruct (Nat.eqb_spec c n) as [->|Hne].
  - rewrite (qsum_ext _ _ (fun _ => 0%Q)); [rewrite qsum_0; ring|].
    intros k Hk. destruct (Nat.eqb_spec n k); [lia|ring].
  - rewrite IH by lia. ring.
Qed.
Lemma qsum_shift n f : (qsum (S n) f == f 0%nat + qsum n (fun k => f (S k)))%Q.
Proof. induction n as [|n IH]; [cbn [qsum]; ring|]. cbn [qsum] in *. rewrite IH. ring. Qed.

Lemma combine_sum (x : list Q) (M : mat) i : length x = length M ->
  (lsum (map (fun p => fst p * nth i (snd p) 0) (combine x M)) == qsum (length M) (fun k => nth k x 0 * cell M k i))%Q.
Proof.
  revert M; induction x as [|a x IH]; intros [|r M] H; try discriminate; [reflexivity|].
  injection H as H. cbn [length]. rewrite qsum_shift. cbn [combine map lsum fold_right fst snd nth].
  rewrite IH by exact H. reflexivity.
Qed.
Lemma nth_map_seq (f : nat -> Q) n i : i < n -> nth i (map f (seq 0 n)) 0%Q = f i.
Proof. intros H. rewrite (nth_indep _ 0%Q (f 0)) by (rewrite map_length, seq_length; lia). rewrite map_nth, seq_nth by lia. reflexivity. Qed.
Lemma vec_mat_spec x M n i : length x = length M -> i < n ->
  (nth i (vec_mat x M n) 0 == qsum (length M) (fun k => nth k x 0 * cell M k i))%Q.
Proof. intros H Hi. unfold vec_mat. rewrite nth_map_seq by exact Hi. rewrite fold_lsum, combine_sum by exact H. ring. Qed.
Lemma sp_sum (x : srow) (M : mat) i : (forall e, In e x -> fst e < length M) ->
  (lsum (map (fun e => snd e * nth i (nth (fst e) M []) 0) x) == qsum (length M) (fun j => value x j * cell M j i))%Q.
Proof.
  induction x as [|[c v] x IH]; intros H; cbn [map lsum fold_right value fst snd].
  - rewrite (qsum_ext _ _ (fun _ => 0%Q)); [rewrite qsum_0; reflexivity|intros; ring].
  - rewrite IH by (intros e He; apply H; right; exact He).
    rewrite (qsum_ext _ (fun j => ((if c =? j then v else 0) + value x j) * cell M j i)%Q
       (fun j => (if c =? j then v else 0) * cell M j i + value x j * cell M j i)%Q) by (intros; ring).
    rewrite qsum_add, qsum_single by (apply (H (c, v)); left; reflexivity). reflexivity.
Qed.
Lemma sp_mat_spec x M n i : (forall e, In e x -> fst e < length M) -> i < n ->
  (nth i (sp_mat x M n) 0 == qsum (length M) (fun j => value x j * cell M j i))%Q.
Proof. intros H Hi. unfold sp_mat. rewrite nth_map_seq by exact Hi. rewrite fold_lsum, sp_sum by exact H. ring. Qed.
Lemma lsum_app l l' : (lsum (l ++ l') == lsum l + lsum l')%Q.
Proof. unfold lsum. induction l as [|a l IH]; cbn [app fold_right]; [|rewrite IH]; ring. Qed.
Lemma value_filter (x : srow) i a : (lsum (map (fun e => a * snd e) (filter (fun e => fst e =? i) x)) == a * value x i)%Q.
Proof.
  unfold lsum. induction x as [|[c v] x IH]; cbn [map filter value fst snd]; [cbn [map fold_right]; ring|].
  destruct (c =? i); cbn [map fold_right snd]; rewrite IH; ring.
Qed.
Lemma vec_sp_sum (x : list Q) (X : list srow) i : length x = length X ->
  (lsum (flat_map (fun p => map (fun e => fst p * snd e) (filter (fun e => (fst e =? i)%nat) (snd p))) (combine x X))
   == qsum (length X) (fun v => nth v x 0 * value (nth v X []) i))%Q.
Proof.
  revert X; induction x as [|a x IH]; intros [|r X] H; try discriminate; [reflexivity|].
  injection H as H. cbn [length]. rewrite qsum_shift. cbn [combine flat_map fst snd nth].
  rewrite lsum_app, value_filter, IH by exact H. reflexivity.
Qed.
Lemma vec_sp_spec x X n i : length x = length X -> i < n ->
  (nth i (vec_sp x X n) 0 == qsum (length X) (fun v => nth v x 0 * value (nth v X []) i))%Q.
Proof. intros H Hi. unfold vec_sp. rewrite nth_map_seq by exact Hi. rewrite fold_lsum, vec_sp_sum by exact H. ring. Qed.
Lemma mat_T_length M n : length (mat_T M n) = n.
Proof. unfold mat_T. rewrite map_length, seq_length. reflexivity. Qed.
Lemma mat_T_cell M n k i : k < n -> i < length M -> cell (mat_T M n) k i = cell M i k.
Proof.
  intros Hk Hi. unfold cell, mat_T.
  set (f := fun i => map (fun r : list Q => nth i r 0%Q) M).
  rewrite (nth_indep (map f (seq 0 n)) [] (f 0)) by (rewrite map_length, seq_length; lia).
  rewrite map_nth, seq_nth by lia. unfold f. cbn [Nat.add].
  set (g := fun r : list Q => nth k r 0%Q).
  rewrite (nth_indep (map g M) 0%Q (g [])) by (rewrite map_length; lia).
  rewrite map_nth. reflexivity.
Qed.
Lemma vec_matT_spec x M d n i : shape n d M -> length x = d -> i < n ->
  (nth i (vec_mat x (mat_T M (length (hd [] M))) n) 0 == qsum (length x) (fun k => nth k x 0 * cell M i k))%Q.
Proof.
  intros [HM Hr] Hx Hi.
  assert (Hd : length (hd [] M) = d).
  { destruct M as [|r M]; [cbn in HM; lia|]. apply Hr. left; reflexivity. }
  rewrite Hd. rewrite vec_mat_spec by (rewrite ?mat_T_length; auto). rewrite mat_T_length, <- Hx.
  apply qsum_ext. intros k Hk. rewrite mat_T_cell by lia. reflexivity.
Qed.
Lemma vec_mat_length x M n : length (vec_mat x M n) = n.
Proof. unfold vec_mat. rewrite map_length, seq_length. reflexivity. Qed.
Lemma sp_mat_length x M n : length (sp_mat x M n) = n.
Proof. unfold sp_mat. rewrite map_length, seq_length. reflexivity. Qed.
Lemma vec_sp_length x M n : length (vec_sp x M n) = n.
Proof. unfold vec_sp. rewrite map_length, seq_length. reflexivity. Qed.
Lemma add_row_length a b n : length a = n -> length b = n -> length (add_row a b) = n.
Proof. intros. unfold add_row. rewrite map_length, combine_length. lia. Qed.
Lemma add_row_nth a b i : length a = length b -> (nth i (add_row a b) 0 == nth i a 0 + nth i b 0)%Q.
Proof.
  revert b i; induction a as [|x a IH]; intros [|y b] i H; try discriminate; destruct i; cbn [add_row combine map nth fst snd]; try ring.
  apply IH. injection H as H; exact H.
Qed.

(** ** Indexing *)
Lemma py_index_spec n k u : py_index n k = Some u <-> denotes n k u.
Proof.
  unfold py_index, denotes.
  destruct ((0 <=? k)%Z && (k <? Z.of_nat n)%Z) eqn:E1; [|destruct ((- Z.of_nat n <=? k)%Z && (k <? 0)%Z) eqn:E2];
    rewrite ?andb_true_iff, ?andb_false_iff, ?Z.leb_le, ?Z.leb_gt, ?Z.ltb_lt, ?Z.ltb_ge in *.
  - split; [intros [= <-]; split; lia|]. intros [H1 [-> | ->]]; [f_equal; lia|lia].
  - split; [intros [= <-]; split; lia|]. intros [H1 [-> | ->]]; [lia|f_equal; lia].
  - split; [discriminate|]. intros [H1 [-> | ->]]; lia.
Qed.
Lemma py_take_ok {A} (rows : list A) idx S : py_take rows idx = Ok S <->
  Forall2 (fun k a => exists u, denotes (length rows) k u /\ nth_error rows u = Some a) idx S.
Proof.
  revert S; induction idx as [|k idx IH]; intros S; cbn.
  - split; [intros [= <-]; constructor|]. intros H; inversion H; reflexivity.
  - destruct (py_index (length rows) k) as [u|] eqn:E.
    + pose proof (proj1 (py_index_spec _ _ _) E) as Hd.
      destruct (nth_error rows u) as [a|] eqn:Ea.
      * destruct (py_take rows idx) as [S'| | |] eqn:ET; cbn.
        -- split.
           ++ intros [= <-]. constructor; [exists u; auto|apply IH; reflexivity].
           ++ intros H; inversion H as [|? ? ? ? (u' & Hu' & Ha') HF]; subst.
              apply py_index_spec in Hu'. rewrite E in Hu'; injection Hu' as <-.
              rewrite Ea in Ha'; injection Ha' as <-. apply IH in HF. injection HF as <-. reflexivity.
        -- split; [discriminate|]. intros H; inversion H; subst. apply IH in H4; discriminate.
        -- split; [discriminate|]. intros H; inversion H; subst. apply IH in H4; discriminate.
        -- split; [discriminate|]. intros H; inversion H; subst. apply IH in H4; discriminate.
      * split; [discriminate|]. destruct Hd as [Hl _]. apply nth_error_None in Ea. lia.
    + split; [discriminate|]. intros H; inversion H as [|? ? ? ? (u' & Hu' & Ha') HF]; subst.
      apply py_index_spec in Hu'. congruence.
Qed.
Lemma py_take_cases {A} (rows : list A) idx : py_take rows idx = Fail IndexError \/ exists S, py_take rows idx = Ok S.
Proof.
  induction idx as [|k idx IH]; cbn; [eauto|].
  destruct (py_index (length rows) k) as [u|]; [|auto].
  destruct (nth_error rows u); [|auto].
  destruct IH as [-> | [S ->]]; cbn; eauto.
Qed.
Lemma py_take_total {A} (rows : list A) idx :
  (forall k, In k idx -> exists u, denotes (length rows) k u) -> exists S, py_take rows idx = Ok S.
Proof.
  induction idx as [|k idx IH]; intros H; cbn; [eauto|].
  destruct (H k (or_introl eq_refl)) as [u Hu]. pose proof (proj2 (py_index_spec _ _ _) Hu) as E. rewrite E.
  destruct (nth_error rows u) as [a|] eqn:Ea; [|apply nth_error_None in Ea; destruct Hu; lia].
  destruct IH as [S ->]; [intros; apply H; right; assumption|]. cbn; eauto.
Qed.
Lemma py_take_length {A} (rows : list A) idx S : py_take rows idx = Ok S -> length S = length idx.
Proof. intros H. apply py_take_ok in H. induction H; cbn; auto. Qed.

(** A block inside the range is the same as taking its indices one by one. *)
Definition block_indices (b e : nat) : list Z := map Z.of_nat (seq b (e - b)).
Lemma py_bound_in n b : b <= n -> py_bound n (Z.of_nat b) = b.
Proof. intros H. unfold py_bound. destruct (Z.ltb_spec (Z.of_nat b) 0); [lia|]. lia. Qed.
Lemma py_slice_in {A} (rows : list A) b e : b <= length rows -> e <= length rows ->
  py_slice rows (Z.of_nat b) (Z.of_nat e) = firstn (e - b) (skipn b rows).
Proof. intros. unfold py_slice. rewrite !py_bound_in by assumption. reflexivity. Qed.
Lemma py_take_block {A} (rows : list A) b n : b + n <= length rows ->
  py_take rows (map Z.of_nat (seq b n)) = Ok (firstn n (skipn b rows)).
Proof.
  revert b; induction n as [|n IH]; intros b H; [reflexivity|].
  cbn [seq map py_take].
  assert (Hd : denotes (length rows) (Z.of_nat b) b) by (split; [lia|left; reflexivity]).
  apply py_index_spec in Hd. rewrite Hd.
  destruct (nth_error rows b) as [a|] eqn:Ea; [|apply nth_error_None in Ea; lia].
  rewrite IH by lia. cbn.
  assert (Hs : skipn b rows = a :: skipn (S b) rows).
  { clear - Ea. revert b Ea; induction rows as [|x rows IH]; intros [|b] Ea; try discriminate; cbn in *.
    - injection Ea as ->; reflexivity.
    - apply IH in Ea. exact Ea. }
  rewrite Hs. reflexivity.
Qed.
Lemma py_take_slice {A} (rows : list A) b e : b <= e -> e <= length rows ->
  py_take rows (block_indices b e) = Ok (py_slice rows (Z.of_nat b) (Z.of_nat e)).
Proof. intros. rewrite py_slice_in by lia. apply py_take_block. lia. Qed.

(** ** get_score *)
(** The rows of the result, one per user. *)
Definition score_row (r : recommender) (u : nat) : list Q :=
  let n := r_items r in
  match r_model r with
  | Similarity (Some W) => sp_mat (nth u (r_X r) []) W n
  | UserSimilarity (Some U) => vec_sp (nth u U []) (r_X r) n
  | TopPop (Some s) => s
  | TruncSVD (Some (z, c)) | Nmf (Some (z, c)) => vec_mat (nth u z []) c n
  | Bprfm (Some (us, is_, b)) => add_row (vec_mat (nth u us []) (mat_T is_ (length (hd [] is_))) n) b
  | Ials (Some (us, is_)) => vec_mat (nth u us []) (mat_T is_ (length (hd [] is_))) n
  | _ => []
  end.
Lemma cell_row (M : mat) a b : cell M a b = nth b (nth a M []) 0%Q.
Proof. reflexivity. Qed.
Lemma shape_row a b M u : shape a b M -> u < a -> length (nth u M []) = b.
Proof. intros [H1 H2] Hu. apply H2, nth_In. lia. Qed.
Lemma score_row_length r u : well_formed r -> learnt r = true -> u < r_users r -> length (score_row r u) = r_items r.
Proof.
  intros [HX Hm] Hl Hu. unfold score_row, learnt in *.
  destruct (r_model r) as [[W|]|[U|]|[s|]|[[z c]|]|[[z c]|]|[[[us is_] b]|]|[[us is_]|]]; try discriminate;
    rewrite ?sp_mat_length, ?vec_sp_length, ?vec_mat_length; auto.
  apply add_row_length; [apply vec_mat_length|apply Hm].
Qed.
Lemma score_row_value r u i : well_formed r -> learnt r = true -> u < r_users r -> i < r_items r ->
  (nth i (score_row r u) 0 == true_score r u i)%Q.
Proof.
  intros [HX Hm] Hl Hu Hi. unfold score_row, true_score, learnt, r_users in *.
  destruct (r_model r) as [[W|]|[U|]|[s|]|[[z c]|]|[[z c]|]|[[[us is_] b]|]|[[us is_]|]]; try discriminate.
  - destruct Hm as [HW HW']. rewrite sp_mat_spec, HW; [reflexivity| |exact Hi].
    intros e He. rewrite HW. apply (HX (nth u (r_X r) [])); [apply nth_In; exact Hu|exact He].
  - rewrite vec_sp_spec; [reflexivity|rewrite (shape_row _ _ _ _ Hm Hu); reflexivity|exact Hi].
  - reflexivity.
  - destruct Hm as (d & H1 & H2). rewrite vec_mat_spec; [reflexivity| |exact Hi].
    rewrite (shape_row _ _ _ _ H1 Hu). symmetry; apply H2.
  - destruct Hm as (d & H1 & H2). rewrite vec_mat_spec; [reflexivity| |exact Hi].
    rewrite (shape_row _ _ _ _ H1 Hu). symmetry; apply H2.
  - destruct Hm as [(d & H1 & H2) Hb]. rewrite add_row_nth by (rewrite vec_mat_length; congruence).
    rewrite (vec_matT_spec _ is_ d) by (auto; exact (shape_row _ _ _ _ H1 Hu)). reflexivity.
  - destruct Hm as (d & H1 & H2).
    rewrite (vec_matT_spec _ is_ d) by (auto; exact (shape_row _ _ _ _ H1 Hu)). reflexivity.
Qed.

Lemma take_map {A B} (g : A -> B) (rows : list A) d us T : py_take rows us = Ok T ->
  Forall2 (fun k s => exists u, denotes (length rows) k u /\ s = g (nth u rows d)) us (map g T).
Proof.
  intros H. apply py_take_ok in H. induction H as [|k a us T (u & Hu & Ha) HF IH]; cbn; constructor; auto.
  exists u; split; auto. f_equal. symmetry; apply nth_error_nth; exact Ha.
Qed.
Lemma Forall2_imp {A B} (P Q : A -> B -> Prop) l l' : (forall a b, P a b -> Q a b) -> Forall2 P l l' -> Forall2 Q l l'.
Proof. intros H HF; induction HF; constructor; auto. Qed.

Lemma get_score_rows r us S : well_formed r -> (forall k, In k us -> exists u, denotes (r_users r) k u) ->
  get_score r us = Ok S -> learnt r = true /\
  Forall2 (fun k s => exists u, denotes (r_users r) k u /\ s = score_row r u) us S.
Proof.
  intros [HX Hm] Hus. unfold get_score, learnt, score_row, r_users in *.
  destruct (r_model r) as [[W|]|[U|]|[s|]|[[z c]|]|[[z c]|]|[[[vs is_] b]|]|[[vs is_]|]]; cbn -[denotes];
    try discriminate; try (destruct (py_take_cases (r_X r) us) as [-> | [? ->]]; discriminate); intros HS; split; auto.
  - destruct (py_take (r_X r) us) as [T| | |] eqn:ET; try discriminate. injection HS as <-.
    exact (take_map (fun x => sp_mat x W (r_items r)) (r_X r) [] us T ET).
  - destruct (py_take U us) as [T| | |] eqn:ET; try discriminate. injection HS as <-.
    destruct Hm as [H1 _]. rewrite <- H1. exact (take_map (fun x => vec_sp x (r_X r) (r_items r)) U [] us T ET).
  - injection HS as <-. clear Hm. induction us as [|k us IH]; cbn; constructor.
    + destruct (Hus k (or_introl eq_refl)) as [u Hu]. exists u; auto.
    + apply IH. intros; apply Hus; right; assumption.
  - destruct (py_take z us) as [T| | |] eqn:ET; try discriminate. injection HS as <-.
    destruct Hm as (d & [H1 _] & _). rewrite <- H1. exact (take_map (fun x => vec_mat x c (r_items r)) z [] us T ET).
  - destruct (py_take z us) as [T| | |] eqn:ET; try discriminate. injection HS as <-.
    destruct Hm as (d & [H1 _] & _). rewrite <- H1. exact (take_map (fun x => vec_mat x c (r_items r)) z [] us T ET).
  - destruct (py_take vs us) as [T| | |] eqn:ET; try discriminate. injection HS as <-.
    destruct Hm as [(d & [H1 _] & _) _]. rewrite <- H1.
    exact (take_map (fun x => add_row (vec_mat x (mat_T is_ (length (hd [] is_))) (r_items r)) b) vs [] us T ET).
  - destruct (py_take vs us) as [T| | |] eqn:ET; try discriminate. injection HS as <-.
    destruct Hm as (d & [H1 _] & _). rewrite <- H1.
    exact (take_map (fun x => vec_mat x (mat_T is_ (length (hd [] is_))) (r_items r)) vs [] us T ET).
Qed.

Lemma get_score_total r us : well_formed r -> learnt r = true ->
  (forall k, In k us -> exists u, denotes (r_users r) k u) -> exists S, get_score r us = Ok S.
Proof.
  intros [HX Hm] Hl Hus. unfold get_score, learnt, r_users in *.
  destruct (r_model r) as [[W|]|[U|]|[s|]|[[z c]|]|[[z c]|]|[[[vs is_] b]|]|[[vs is_]|]]; try discriminate; cbn -[denotes].
  - destruct (py_take_total (r_X r) us Hus) as [T ->]. cbn; eauto.
  - destruct Hm as [H1 _]. rewrite <- H1 in Hus. destruct (py_take_total U us Hus) as [T ->]. cbn; eauto.
  - eauto.
  - destruct Hm as (d & [H1 _] & _). rewrite <- H1 in Hus. destruct (py_take_total z us Hus) as [T ->]. cbn; eauto.
  - destruct Hm as (d & [H1 _] & _). rewrite <- H1 in Hus. destruct (py_take_total z us Hus) as [T ->]. cbn; eauto.
  - destruct Hm as [(d & [H1 _] & _) _]. rewrite <- H1 in Hus. destruct (py_take_total vs us Hus) as [T ->]. cbn; eauto.
  - destruct Hm as (d & [H1 _] & _). rewrite <- H1 in Hus. destruct (py_take_total vs us Hus) as [T ->]. cbn; eauto.
Qed.

Theorem get_score_value r us S : well_formed r -> (forall k, In k us -> exists u, denotes (r_users r) k u) ->
  get_score r us = Ok S ->
  length S = length us /\
  forall p k u, nth_error us p = Some k -> denotes (r_users r) k u ->
    length (nth p S []) = r_items r /\ forall i, i < r_items r -> (cell S p i == true_score r u i)%Q.
Proof.
  intros Hw Hus HS. destruct (get_score_rows r us S Hw Hus HS) as [Hl HF]. split.
  - clear - HF. induction HF; cbn; auto.
  - intros p k u Hp Hk.
    assert (H : nth p S [] = score_row r u).
    { clear - HF Hp Hk. revert p Hp; induction HF as [|k' s us S (u' & Hu' & ->) HF IH]; intros [|p] Hp; try discriminate; cbn in *.
      - injection Hp as ->. apply py_index_spec in Hk, Hu'. rewrite Hk in Hu'; injection Hu' as ->; reflexivity.
      - apply IH; exact Hp. }
    unfold cell. rewrite H. destruct Hk as [Hu _]. split; [apply score_row_length; auto|].
    intros i Hi. apply score_row_value; auto.
Qed.

(** ** Blocks *)
Lemma block_is_score r b e : well_formed r -> b <= e -> e <= r_users r -> has_block r = true ->
  get_score_block r (Z.of_nat b) (Z.of_nat e) = get_score r (block_indices b e).
Proof.
  intros [HX Hm] Hbe He Hb. unfold get_score_block, get_score, has_block, r_users in *.
  destruct (r_model r) as [[W|]|[U|]|[s|]|[[z c]|]|[[z c]|]|[[[vs is_] bi]|]|[[vs is_]|]]; try discriminate; cbn.
  - rewrite py_take_slice by assumption. reflexivity.
  - rewrite py_take_slice by assumption. reflexivity.
  - destruct Hm as [H1 _]. rewrite py_take_slice by lia. reflexivity.
  - reflexivity.
  - destruct Hm as (d & [H1 _] & _). rewrite py_take_slice by lia. reflexivity.
  - reflexivity.
  - destruct Hm as [(d & [H1 _] & _) _]. rewrite py_take_slice by lia. reflexivity.
  - reflexivity.
  - destruct Hm as (d & [H1 _] & _). rewrite py_take_slice by lia.
    destruct (Z.ltb_spec (Z.of_nat b) 0); [lia|]. destruct (Z.ltb_spec (Z.of_nat e) 0); [lia|]. cbn.
    unfold check_arg. destruct (Z.leb_spec (Z.of_nat b) (Z.of_nat e)); [|lia].
    destruct (Z.leb_spec (Z.of_nat e) (Z.of_nat (length vs))); [|lia]. reflexivity.
  - reflexivity.
Qed.
Lemma block_indices_denote n b e k : b <= e -> e <= n -> In k (block_indices b e) -> exists u, denotes n k u.
Proof.
  intros. unfold block_indices in *. apply in_map_iff in H1 as (u & <- & Hu). apply in_seq in Hu.
  exists u; split; [lia|left; reflexivity].
Qed.
Lemma block_indices_nth b e p : p < e - b -> nth_error (block_indices b e) p = Some (Z.of_nat (b + p)).
Proof.
  intros H. unfold block_indices. rewrite nth_error_map.
  rewrite (nth_error_nth' _ 0) by (rewrite seq_length; exact H). rewrite seq_nth by exact H. reflexivity.
Qed.
Theorem block_value r b e S : well_formed r -> b <= e -> e <= r_users r ->
  get_score_block r (Z.of_nat b) (Z.of_nat e) = Ok S ->
  length S = e - b /\
  forall p i, p < e - b -> i < r_items r -> (cell S p i == true_score r (b + p) i)%Q.
Proof.
  intros Hw Hbe He HS.
  assert (Hb : has_block r = true).
  { unfold has_block, get_score_block in *. destruct (r_model r); auto; discriminate. }
  rewrite block_is_score in HS by assumption.
  destruct (get_score_value r _ S Hw (fun k Hk => block_indices_denote _ b e k Hbe He Hk) HS) as [H1 H2].
  split; [rewrite H1; unfold block_indices; rewrite map_length, seq_length; reflexivity|].
  intros p i Hp Hi. apply (H2 p (Z.of_nat (b + p))); auto.
  - apply block_indices_nth; exact Hp.
  - split; [lia|left; reflexivity].
Qed.

(** ** Masking *)
Lemma mask_row_length x s : length (mask_row x s) = length s.
Proof. unfold mask_row. rewrite map_length, combine_length, seq_length. lia. Qed.
Lemma mask_row_nth x s i : i < length s ->
  nth i (mask_row x s) PosInf =
    if existsb (fun e => (fst e =? i) && negb (Qeq_bool (snd e) 0)) x then NegInf else Fin (nth i s 0%Q).
Proof.
  intros Hi. unfold mask_row.
  set (g := fun p : nat * Q => if existsb (fun e => (fst e =? fst p) && negb (Qeq_bool (snd e) 0)) x then NegInf else Fin (snd p)).
  rewrite (nth_indep _ PosInf (g (0, 0%Q))) by (rewrite map_length, combine_length, seq_length; lia).
  rewrite map_nth, combine_nth by (rewrite seq_length; reflexivity). rewrite seq_nth by exact Hi. reflexivity.
Qed.
Lemma seen_exists x i : existsb (fun e => (fst e =? i) && negb (Qeq_bool (snd e) 0)) x = true <-> seen x i.
Proof.
  rewrite existsb_exists. unfold seen. split.
  - intros ([c v] & Hin & H). cbn in H. apply andb_true_iff in H as [H1 H2]. apply Nat.eqb_eq in H1 as ->.
    exists v; split; auto. intros Hv. apply Qeq_bool_iff in Hv. rewrite Hv in H2; discriminate.
  - intros (v & Hin & Hv). exists (i, v); split; auto. cbn. rewrite Nat.eqb_refl. cbn.
    destruct (Qeq_bool v 0) eqn:E; auto. apply Qeq_bool_iff in E. contradiction.
Qed.
Lemma mask_row_spec x s i : i < length s ->
  (seen x i -> nth i (mask_row x s) PosInf = NegInf) /\
  (~ seen x i -> nth i (mask_row x s) PosInf = Fin (nth i s 0%Q)).
Proof.
  intros Hi. rewrite mask_row_nth by exact Hi. rewrite <- seen_exists.
  destruct existsb; split; intros; auto; congruence.
Qed.
Lemma mask_rows rows S p : length rows = length S -> nth p (mask rows S) [] = mask_row (nth p rows []) (nth p S []).
Proof.
  intros H. pose proof (map_nth (fun q : srow * list Q => mask_row (fst q) (snd q)) (combine rows S) ([], []) p) as E.
  rewrite combine_nth in E by exact H. exact E.
Qed.
Lemma py_take_nth {A} (rows : list A) us T p k u d : py_take rows us = Ok T -> nth_error us p = Some k ->
  denotes (length rows) k u -> nth p T d = nth u rows d.
Proof.
  intros H Hp Hk. apply py_take_ok in H. revert p Hp; induction H as [|k' a us T (u' & Hu' & Ha) HF IH]; intros [|p] Hp; try discriminate; cbn in *.
  - injection Hp as ->. apply py_index_spec in Hk, Hu'. rewrite Hk in Hu'; injection Hu' as ->.
    symmetry; apply nth_error_nth; exact Ha.
  - apply IH; exact Hp.
Qed.
Theorem remove_seen_value r us S : well_formed r -> get_score_remove_seen r us = Ok S ->
  exists S0, get_score r us = Ok S0 /\ length S = length us /\
  forall p k u, nth_error us p = Some k -> denotes (r_users r) k u ->
    length (nth p S []) = r_items r /\
    forall i, i < r_items r ->
      (seen (nth u (r_X r) []) i -> nth i (nth p S []) PosInf = NegInf) /\
      (~ seen (nth u (r_X r) []) i -> nth i (nth p S []) PosInf = Fin (cell S0 p i)).
Proof.
  intros Hw. unfold get_score_remove_seen. destruct (get_score r us) as [S0| | |] eqn:E; try discriminate. cbn.
  destruct (py_take (r_X r) us) as [T| | |] eqn:ET; try discriminate. cbn. intros [= <-]. exists S0; split; auto.
  assert (Hus : forall k, In k us -> exists u, denotes (r_users r) k u).
  { intros k Hk. apply py_take_ok in ET. clear - Hk ET.
    induction ET as [|k' a us T (u & Hu & _) HF IH]; [destruct Hk|]. destruct Hk as [<-|Hk]; eauto. }
  destruct (get_score_value r us S0 Hw Hus E) as [H1 H2].
  pose proof (py_take_length _ _ _ ET) as HT.
  split; [unfold mask; rewrite map_length, combine_length; lia|].
  intros p k u Hp Hk. rewrite mask_rows by congruence. rewrite (py_take_nth (r_X r) us T p k u []) by assumption.
  destruct (H2 p k u Hp Hk) as [H3 _]. split; [rewrite mask_row_length; exact H3|].
  intros i Hi. apply mask_row_spec. rewrite H3; exact Hi.
Qed.
Theorem remove_seen_block r b e : well_formed r -> b <= e -> e <= r_users r -> has_block r = true ->
  get_score_remove_seen_block r (Z.of_nat b) (Z.of_nat e) = get_score_remove_seen r (block_indices b e).
Proof.
  intros Hw Hbe He Hb. unfold get_score_remove_seen_block, get_score_remove_seen.
  rewrite block_is_score by assumption. unfold r_users in He. rewrite py_take_slice by assumption. reflexivity.
Qed.
Theorem remove_seen_total r us : well_formed r -> learnt r = true ->
  (forall k, In k us -> exists u, denotes (r_users r) k u) -> exists S, get_score_remove_seen r us = Ok S.
Proof.
  intros Hw Hl Hus. unfold get_score_remove_seen. destruct (get_score_total r us Hw Hl Hus) as [S ->]. cbn.
  destruct (py_take_total (r_X r) us Hus) as [T ->]. cbn; eauto.
Qed.

(** ** Before learn *)
Theorem not_learnt r us b e : learnt r = false ->
  (exists er, get_score r us = Fail er) /\ (exists er, get_score_block r b e = Fail er).
Proof.
  unfold learnt, get_score, get_score_block.
  destruct (r_model r) as [[W|]|[U|]|[s|]|[[z c]|]|[[z c]|]|[[[vs is_] bi]|]|[[vs is_]|]]; try discriminate; intros _; cbn;
    try (destruct (py_take_cases (r_X r) us) as [-> | [? ->]]; cbn); eauto.
Qed.

Theorem not_learnt_error r us b e : learnt r = false -> (forall k, In k us -> exists u, denotes (r_users r) k u) ->
  get_score r us = Fail (unlearnt_error r) /\
  get_score_block r b e = Fail (if has_block r then RuntimeError else NotImplemented).
Proof.
  unfold learnt, get_score, get_score_block, unlearnt_error, has_block.
  destruct (r_model r) as [[W|]|[U|]|[s|]|[[z c]|]|[[z c]|]|[[[vs is_] bi]|]|[[vs is_]|]]; try discriminate; intros _ Hus; cbn;
    try (destruct (py_take_total (r_X r) us Hus) as [? ->]; cbn); auto.
Qed.
Lemma nth_map_in {A B} (f : A -> B) l p d d' : p < length l -> nth p (map f l) d = f (nth p l d').
Proof. intros H. rewrite (nth_indep _ d (f d')) by (rewrite map_length; exact H). apply map_nth. Qed.

(** ** Cold users *)
Section Cold.
Variable nmf_transform : mat -> list srow -> mat.
Variable ials_transform : mat -> list srow -> outcome mat.
Theorem similarity_cold r W us rows : r_model r = Similarity W -> well_formed r ->
  py_take (r_X r) us = Ok rows ->
  get_score_cold_user nmf_transform ials_transform r (r_items r) rows = get_score r us.
Proof.
  intros Hm [_ Hw] HT. unfold get_score_cold_user, get_score. rewrite Hm, HT in *. cbn.
  destruct W as [W|]; cbn; [|reflexivity]. destruct Hw as [HW _]. rewrite HW, Nat.eqb_refl. reflexivity.
Qed.
Theorem similarity_cold_value r W X S : r_model r = Similarity (Some W) -> well_formed r ->
  (forall x e, In x X -> In e x -> fst e < r_items r) ->
  get_score_cold_user nmf_transform ials_transform r (r_items r) X = Ok S ->
  length S = length X /\
  forall p i, p < length X -> i < r_items r ->
    (cell S p i == qsum (r_items r) (fun j => value (nth p X []) j * cell W j i))%Q.
Proof.
  intros Hm [_ Hw] HX. unfold get_score_cold_user. rewrite Hm in *. cbn. destruct Hw as [HW _].
  rewrite HW, Nat.eqb_refl. intros [= <-]. split; [apply map_length|].
  intros p i Hp Hi. unfold cell at 1.
  rewrite (nth_map_in _ X p [] []) by exact Hp. cbv beta. rewrite sp_mat_spec, HW; [reflexivity| |exact Hi].
  intros e He. rewrite HW. apply (HX (nth p X [])); [apply nth_In; exact Hp|exact He].
Qed.
Theorem svd_cold_value r z c X S : r_model r = TruncSVD (Some (z, c)) -> well_formed r ->
  (forall x e, In x X -> In e x -> fst e < r_items r) ->
  get_score_cold_user nmf_transform ials_transform r (r_items r) X = Ok S ->
  length S = length X /\
  forall p i, p < length X -> i < r_items r ->
    (cell S p i == qsum (length c) (fun k => qsum (r_items r) (fun j => value (nth p X []) j * cell c k j) * cell c k i))%Q.
Proof.
  intros Hm [_ Hw] HX. unfold get_score_cold_user. rewrite Hm in *. cbn [fitted obind snd]. destruct Hw as (d & _ & [Hc Hc']).
  rewrite Nat.eqb_refl. intros [= <-]. split; [apply map_length|].
  intros p i Hp Hi. unfold cell at 1.
  rewrite (nth_map_in _ X p [] []) by exact Hp. cbv beta. rewrite vec_mat_spec by (rewrite ?sp_mat_length; auto).
  apply qsum_ext. intros k Hk. rewrite sp_mat_spec; [|intros e He; rewrite mat_T_length; apply (HX (nth p X [])); [apply nth_In; exact Hp|exact He]|exact Hk].
  rewrite mat_T_length.
  rewrite (qsum_ext (r_items r) (fun j => value (nth p X []) j * cell (mat_T c (r_items r)) j k)%Q
    (fun j => value (nth p X []) j * cell c k j)%Q); [reflexivity|].
  intros j Hj. rewrite mat_T_cell by lia. reflexivity.
Qed.
Theorem cold_remove_seen_value r cols X S : get_score_cold_user_remove_seen nmf_transform ials_transform r cols X = Ok S ->
  exists S0, get_score_cold_user nmf_transform ials_transform r cols X = Ok S0 /\
  (length S0 = length X -> forall p i, p < length X -> i < length (nth p S0 []) ->
      (seen (nth p X []) i -> nth i (nth p S []) PosInf = NegInf) /\
      (~ seen (nth p X []) i -> nth i (nth p S []) PosInf = Fin (cell S0 p i))).
Proof.
  unfold get_score_cold_user_remove_seen. destruct get_score_cold_user as [S0| | |]; try discriminate. cbn. intros [= <-].
  exists S0; split; auto. intros HL p i Hp Hi. rewrite mask_rows by congruence. apply mask_row_spec. exact Hi.
Qed.
End Cold.

(** ** Embeddings *)
Definition all_users (r : recommender) : list Z := block_indices 0 (r_users r).
Theorem user_embedding_scores r E : well_formed r -> get_user_embedding r = Ok E ->
  get_score_from_user_embedding r E = get_score r (all_users r).
Proof.
  intros [_ Hm]. unfold get_user_embedding, get_score_from_user_embedding, get_score, all_users, r_users in *.
  destruct (r_model r) as [[W|]|[U|]|[s|]|[[z c]|]|[[z c]|]|[[[vs is_] bi]|]|[[vs is_]|]]; try discriminate; cbn; intros [= <-].
  - destruct Hm as (d & [H1 _] & _). rewrite <- H1.
    replace (py_take z (block_indices 0 (length z))) with (Ok z); [reflexivity|].
    rewrite py_take_slice, py_slice_in by lia. cbn. rewrite Nat.sub_0_r, firstn_all. reflexivity.
  - destruct Hm as [(d & [H1 _] & _) _]. rewrite <- H1.
    replace (py_take vs (block_indices 0 (length vs))) with (Ok vs); [reflexivity|].
    rewrite py_take_slice, py_slice_in by lia. cbn. rewrite Nat.sub_0_r, firstn_all. reflexivity.
  - destruct Hm as (d & [H1 _] & _). rewrite <- H1.
    replace (py_take vs (block_indices 0 (length vs))) with (Ok vs); [reflexivity|].
    rewrite py_take_slice, py_slice_in by lia. cbn. rewrite Nat.sub_0_r, firstn_all. reflexivity.
Qed.
Lemma nth_ext_in {A} (l l' : list A) d : length l = length l' -> (forall i, i < length l -> nth i l d = nth i l' d) -> l = l'.
Proof. intros. apply (nth_ext l l' d d); auto. Qed.
Lemma mat_T_T c a n : shape a n c -> mat_T (mat_T c n) (length c) = c.
Proof.
  intros [H1 H2]. apply (nth_ext_in _ _ []); [apply mat_T_length|].
  rewrite mat_T_length. intros i Hi.
  assert (Hli : length (nth i c []) = n) by (apply H2, nth_In; exact Hi).
  assert (Hlt : length (nth i (mat_T (mat_T c n) (length c)) []) = n).
  { unfold mat_T at 1. rewrite (nth_map_in _ _ i [] 0) by (rewrite seq_length; exact Hi). rewrite map_length, mat_T_length. reflexivity. }
  apply (nth_ext_in _ _ 0%Q); [congruence|]. rewrite Hlt. intros k Hk.
  change (cell (mat_T (mat_T c n) (length c)) i k = cell c i k).
  rewrite mat_T_cell by (rewrite ?mat_T_length; assumption). apply mat_T_cell; assumption.
Qed.
Theorem item_embedding_scores r us E : well_formed r -> (forall fm, r_model r <> Bprfm fm) ->
  get_item_embedding r = Ok E -> get_score_from_item_embedding r us E = get_score r us.
Proof.
  intros [_ Hm] Hb. unfold get_item_embedding, get_score_from_item_embedding, get_score in *.
  destruct (r_model r) as [[W|]|[U|]|[s|]|[[z c]|]|[[z c]|]|fm|[[vs is_]|]]; try discriminate;
    cbn [fitted omap obind fst snd]; try (intros [= <-]).
  - destruct Hm as (d & _ & H2). rewrite mat_T_length.
    destruct (Nat.eq_dec (r_items r) 0) as [H0|H0].
    + rewrite H0. reflexivity.
    + assert (Hhd : length (hd [] (mat_T c (r_items r))) = length c).
      { unfold mat_T. destruct (r_items r); [lia|]. cbn. apply map_length. }
      rewrite Hhd, (mat_T_T c d) by exact H2. reflexivity.
  - exfalso; eapply Hb; reflexivity.
  - destruct Hm as (d & _ & [H1 _]). rewrite H1. reflexivity.
Qed.

Theorem bpr_item_embedding r u i b us E S : well_formed r -> r_model r = Bprfm (Some (u, i, b)) ->
  get_item_embedding r = Ok E -> get_score_from_item_embedding r us E = Ok S ->
  exists S', get_score r us = Ok S' /\ length S' = length S /\
  forall p j, p < length S -> j < r_items r -> (cell S' p j == cell S p j + nth j b 0)%Q.
Proof.
  intros [_ Hw] Hm. rewrite Hm in Hw. destruct Hw as [(d & [Hu _] & [Hi _]) Hb].
  unfold get_item_embedding, get_score_from_item_embedding, get_score. rewrite Hm.
  cbn [fitted omap obind fst snd]. intros [= <-].
  destruct (py_take u us) as [T| | |]; cbn [omap]; try discriminate. intros [= <-].
  eexists; split; [reflexivity|]. rewrite !map_length. split; [reflexivity|].
  intros p j Hp Hj. unfold cell.
  rewrite !(nth_map_in _ T p _ []) by exact Hp. rewrite Hi.
  set (v := vec_mat _ _ _). assert (Hv : length v = r_items r) by (unfold v, vec_mat; rewrite map_length, seq_length; reflexivity).
  clearbody v. unfold add_row.
  rewrite (nth_map_in _ (combine v b) j _ (0, 0)%Q) by (rewrite combine_length; lia).
  rewrite combine_nth by lia. reflexivity.
Qed.

(** ** TopPop *)
Lemma value_concat X i : (lsum (map snd (filter (fun e => (fst e =? i)%nat) (concat X))) == qsum (length X) (fun u => value (nth u X []) i))%Q.
Proof.
  induction X as [|x X IH]; [reflexivity|].
  cbn [length concat]. rewrite qsum_shift. cbn [nth]. rewrite <- IH.
  rewrite filter_app, map_app, lsum_app. apply Qplus_comp; [|reflexivity].
  clear IH. unfold lsum. induction x as [|[c v] x IH]; cbn [filter value fst]; [reflexivity|].
  destruct (c =? i); cbn [map fold_right snd]; rewrite IH; ring.
Qed.
Theorem toppop_value X n i : i < n ->
  (nth i (toppop_learn X n) 0 == qsum (length X) (fun u => value (nth u X []) i))%Q.
Proof. intros H. unfold toppop_learn. rewrite nth_map_seq by exact H. rewrite fold_lsum. rewrite (value_concat X i). apply Qplus_0_l. Qed.
