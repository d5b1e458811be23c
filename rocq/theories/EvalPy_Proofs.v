(** The Python evaluators compute the textbook report, for every chunking and
    every schedule. *)
From Coq Require Import Setoid Morphisms Lqa.
From Verif Require Import Base Sched_Model Sched_Proofs Eval_Model Eval_Spec Sort_Proofs Eval_Proofs
  Eval_Core_Proofs Eval_Main_Proofs EvalPy_Model EvalPy_Spec.
Local Open Scope nat_scope.

Lemma set_neginf_length row cols : length (set_neginf row cols) = length row.
Proof.
  unfold set_neginf. revert row; induction cols as [|j cols IH]; intros row; cbn; auto.
  now rewrite IH, update_nth_length.
Qed.
Lemma nth_update_nth_gen {X} (l : list X) k x j d :
  nth j (update_nth l k x) d = if (j =? k) && (k <? length l) then x else nth j l d.
Proof.
  revert k j; induction l as [|a l IH]; intros k j; cbn [update_nth].
  - cbn. rewrite andb_false_r. reflexivity.
  - destruct k as [|k], j as [|j]; cbn [nth length]; try reflexivity.
    rewrite IH. cbn [Nat.eqb]. replace (S k <? S (length l)) with (k <? length l); auto.
Qed.
Lemma set_neginf_nth row cols i :
  nth i (set_neginf row cols) NegInf = if relevant cols i then NegInf else nth i row NegInf.
Proof.
  unfold set_neginf. revert row; induction cols as [|j cols IH]; intros row; cbn [fold_left].
  - reflexivity.
  - rewrite IH, nth_update_nth_gen. unfold relevant.
    destruct (in_dec Nat.eq_dec i cols), (in_dec Nat.eq_dec i (j :: cols)) as [H|H]; cbn [In] in *; auto; try tauto.
    + destruct H as [->|H]; [|tauto]. rewrite Nat.eqb_refl. cbn [andb].
      destruct (Nat.ltb_spec i (length row)); auto. rewrite nth_overflow by lia. reflexivity.
    + destruct (Nat.eqb_spec i j); [subst; tauto|]. reflexivity.
Qed.

(** Rows after masking; row [k] of [rows] is user [start + k]. *)
Definition mrows (mask : list (list nat)) (rows : list (list score)) (start : nat) : list (list score) :=
  map (fun k => set_neginf (nth k rows []) (nth (start + k) mask [])) (seq 0 (length rows)).

Lemma mrows_length mask rows start : length (mrows mask rows start) = length rows.
Proof. unfold mrows. now rewrite map_length, seq_length. Qed.
Lemma mrows_app mask r1 r2 start :
  mrows mask (r1 ++ r2) start = mrows mask r1 start ++ mrows mask r2 (start + length r1).
Proof.
  unfold mrows. rewrite app_length, seq_app, map_app. f_equal.
  - apply map_ext_in. intros k Hk. apply in_seq in Hk. rewrite app_nth1 by lia. reflexivity.
  - rewrite (Nat.add_comm 0). rewrite <- (Nat.add_0_r (length r1)) at 1.
    assert (E : forall len a b, seq (a + b) len = map (fun k => a + k) (seq b len)).
    { intros len a; induction len as [|len IH]; intros b; cbn; auto. f_equal. rewrite <- IH. f_equal. lia. }
    rewrite Nat.add_0_r. rewrite (E (length r2) (length r1) 0), map_map. apply map_ext_in. intros k Hk.
    rewrite app_nth2 by lia. f_equal; f_equal; lia.
Qed.
Lemma mrows_nil rows start : mrows [] rows start = rows.
Proof.
  unfold mrows. transitivity (map id rows); [|apply map_id]. rewrite <- (map_nth_seq id rows []).
  apply map_ext. intros k. destruct (start + k); reflexivity.
Qed.
Lemma mrows_shape mask rows start n : Forall (fun r => length r = n) rows ->
  Forall (fun r => length r = n) (mrows mask rows start).
Proof.
  intros H. apply Forall_forall. intros r Hr. unfold mrows in Hr. apply in_map_iff in Hr as (k & <- & Hk).
  apply in_seq in Hk. rewrite set_neginf_length. rewrite Forall_forall in H. apply H. apply nth_In. lia.
Qed.
Lemma mrows_nth mask rows start k i : k < length rows ->
  nth i (nth k (mrows mask rows start) []) NegInf =
  if relevant (nth (start + k) mask []) i then NegInf else nth i (nth k rows []) NegInf.
Proof.
  intros Hk. unfold mrows.
  set (f := fun k => set_neginf (nth k rows []) (nth (start + k) mask [])).
  rewrite (nth_indep _ [] (f 0)) by (now rewrite map_length, seq_length).
  rewrite map_nth, seq_nth by auto. unfold f. apply set_neginf_nth.
Qed.

Lemma users_of_app n rows recs off a b :
  users_of n rows recs off (a ++ b) = users_of n rows recs off a ++ users_of n rows recs (off + length a) b.
Proof.
  unfold users_of. rewrite app_length, seq_app, map_app. f_equal.
  - apply map_ext_in. intros k Hk. apply in_seq in Hk. rewrite app_nth1 by lia. reflexivity.
  - assert (E : forall len a b, seq (a + b) len = map (fun k => a + k) (seq b len)).
    { intros len c; induction len as [|len IH]; intros d; cbn; auto. f_equal. rewrite <- IH. f_equal. lia. }
    rewrite Nat.add_0_l. rewrite <- (Nat.add_0_r (length a)) at 1. rewrite E, map_map. apply map_ext_in. intros k Hk.
    rewrite app_nth2 by lia. rewrite (Nat.add_assoc off). f_equal.
    replace (length a + k - length a) with k by lia. reflexivity.
Qed.

Lemma firstn_add {X} a b (l : list X) : firstn (a + b) l = firstn a l ++ firstn b (skipn a l).
Proof. revert l; induction a as [|a IH]; intros l; cbn; auto. destruct l; cbn; [now rewrite firstn_nil|]. f_equal. apply IH. Qed.
Lemma firstn_slice {X} a b (l : list X) : a <= b -> firstn b l = firstn a l ++ slice l a b.
Proof. intros H. unfold slice. rewrite <- firstn_add. f_equal. lia. Qed.
Lemma slice_length {X} (l : list X) a b : a <= b <= length l -> length (slice l a b) = b - a.
Proof. intros H. unfold slice. rewrite firstn_length, skipn_length. lia. Qed.
Lemma nth_skipn' {X} a (l : list X) k d : nth k (skipn a l) d = nth (a + k) l d.
Proof. revert l; induction a as [|a IH]; intros l; auto. destruct l; cbn; [now destruct k|]. apply IH. Qed.
Lemma nth_firstn' {X} a (l : list X) k d : k < a -> nth k (firstn a l) d = nth k l d.
Proof. revert l k; induction a as [|a IH]; intros l k H; [lia|]. destruct l; auto. destruct k; cbn; auto. apply IH; lia. Qed.
Lemma slice_nth {X} (l : list X) a b k d : k < b - a -> nth k (slice l a b) d = nth (a + k) l d.
Proof. intros H. unfold slice. rewrite nth_firstn' by auto. apply nth_skipn'. Qed.
Lemma slice_forall {X} (P : X -> Prop) l a b : Forall P l -> Forall P (slice l a b).
Proof. intros H. rewrite Forall_forall in *. intros x Hx. apply H. unfold slice in Hx. eapply skipn_in, firstn_in, Hx. Qed.
Lemma slice_map {X Y} (f : X -> Y) l a b : slice (map f l) a b = map f (slice l a b).
Proof. unfold slice. now rewrite skipn_map, firstn_map. Qed.
Lemma skipn_skipn' {X} a b (l : list X) : skipn a (skipn b l) = skipn (b + a) l.
Proof. revert l; induction b as [|b IH]; intros l; auto. destruct l; cbn; [apply skipn_nil|]. apply IH. Qed.
Lemma slice_slice {X} (l : list X) o N a b : b <= N -> slice (slice l o (o + N)) a b = slice l (o + a) (o + b).
Proof.
  intros H. unfold slice. replace (o + N - o) with N by lia. rewrite skipn_firstn_comm, firstn_firstn, skipn_skipn'.
  f_equal; lia.
Qed.

(** Masking a chunk. *)

Lemma apply_mask_ok d mask start :
  mask_ok (d_cols d) mask ->
  apply_mask d (slice mask start (start + length (d_rows d))) = Ok (mkDense (d_cols d) (mrows mask (d_rows d) start)).
Proof.
  intros Hm. unfold apply_mask, mask_in_range.
  replace (forallb (forallb (fun j => j <? d_cols d)) (slice mask start (start + length (d_rows d)))) with true.
  2:{ symmetry. apply forallb_forall. intros cols Hc. apply forallb_forall. intros j Hj.
      apply Nat.ltb_lt. pose proof (slice_forall _ _ start (start + length (d_rows d)) Hm) as HF.
      rewrite Forall_forall in HF. specialize (HF _ Hc). rewrite Forall_forall in HF. auto. }
  rewrite skipn_all2.
  2:{ unfold slice. rewrite firstn_length. lia. }
  cbn [andb forallb]. do 2 f_equal. unfold mrows. apply map_ext_in. intros k Hk. apply in_seq in Hk.
  rewrite slice_nth by lia. reflexivity.
Qed.

Section Py.
Variable disc : nat -> Q.

Definition u_contrib' rwc n c := u_contrib disc rwc c n.

(** [ms] are the accumulated metrics, one per cutoff, for the users [us]. *)
Definition acc_ok rwc n (cutoffs : list nat) (us : list user) (ms : list metrics) : Prop :=
  Forall2 (fun c m => meq m (msum n (map (u_contrib disc rwc c n) us))) cutoffs ms.

Lemma acc_ok_nil rwc n cutoffs : acc_ok rwc n cutoffs [] (map (fun _ => empty_metrics n) cutoffs).
Proof. unfold acc_ok. induction cutoffs; cbn; constructor; auto. reflexivity. Qed.

Record ev_ok (ev : evaluator) (rows recs : list (list nat)) (n : nat) : Prop := {
  eo_rows : rows_ok n rows;
  eo_core : make_core rows n recs = Ok (e_core ev);
  eo_users : e_n_users ev = length rows;
  eo_items : e_n_items ev = n;
  eo_thr : 1 <= e_n_threads ev }.


Lemma merge_cutoffs_ok ev rows recs n (Hev : ev_ok ev rows recs n) d begin xs us :
  Forall (fun r => length r = n) (d_rows d) ->
  begin < length rows -> begin + length (d_rows d) <= length rows ->
  (forall k, 1 <= x_launched (xs k)) ->
  forall cutoffs ms k, cutoffs_ok n cutoffs -> acc_ok (e_rwc ev) n cutoffs us ms ->
  merge_cutoffs disc ev d begin xs k cutoffs ms <> Pending ->
  exists ms', merge_cutoffs disc ev d begin xs k cutoffs ms = Ok ms' /\
    acc_ok (e_rwc ev) n cutoffs (us ++ users_of n rows recs begin (d_rows d)) ms'.
Proof.
  destruct Hev as [Hrows Hcore Husers Hitems Hthr].
  intros Hsh Hb He Hx cutoffs; induction cutoffs as [|c cs IH]; intros ms k Hcut Hacc Hp; inversion Hacc; subst.
  - exists []; split; [reflexivity|constructor].
  - cbn [merge_cutoffs] in *. inversion Hcut; subst.
    rename l' into ms. rename y into m.
    destruct (py_get_metrics disc ev d c begin (xs k)) as [r| | |] eqn:Er; cbn [obind] in Hp;
      [|exfalso|exfalso|exfalso; auto].
    + assert (Hm : exists r', py_get_metrics disc ev d c begin (xs k) = Ok r' /\
         meq r' (msum (e_n_items ev) (map (u_contrib disc (e_rwc ev) c (e_n_items ev)) (users_of (e_n_items ev) rows recs begin (d_rows d))))).
      { apply get_metrics_msum; auto.
        - constructor; auto.
        - fold (buffer_of (d_rows d)). unfold py_get_metrics in Er. unfold buffer_of. rewrite Er. discriminate. }
      destruct Hm as (r' & E' & Hm). rewrite Er in E'. injection E' as <-.
      destruct (IH ms (S k)) as (ms' & E & Hacc'); auto.
      { intros E. rewrite E in Hp. cbn in Hp. auto. }
      cbn [obind]. rewrite E. cbn [omap obind]. eexists; split; [reflexivity|]. constructor; auto.
      rewrite map_app, msum_app by apply wf_u_contribs. apply merge_proper; assumption.
    + destruct (get_metrics_msum disc (e_rwc ev) c (e_n_items ev) rows recs (e_core ev) (d_rows d) begin (e_n_threads ev) (xs k))
        as (r' & E' & _); auto.
      * constructor; auto.
      * unfold py_get_metrics in Er. unfold buffer_of. rewrite Er. discriminate.
      * unfold py_get_metrics in Er. unfold buffer_of in E'. rewrite Er in E'. discriminate.
    + destruct (get_metrics_msum disc (e_rwc ev) c (e_n_items ev) rows recs (e_core ev) (d_rows d) begin (e_n_threads ev) (xs k))
        as (r' & E' & _); auto.
      * constructor; auto.
      * unfold py_get_metrics in Er. unfold buffer_of. rewrite Er. discriminate.
      * unfold py_get_metrics in Er. unfold buffer_of in E'. rewrite Er in E'. discriminate.
Qed.

(** ** Chunks *)

Lemma chunk_loop_ok ev rows recs n (Hev : ev_ok ev rows recs n) mask cutoffs xs :
  mask_ok n (opt_mask mask) -> cutoffs_ok n cutoffs -> (forall i k, 1 <= x_launched (xs i k)) ->
  forall chunks ci start us ms,
  Forall dense_wf chunks ->
  acc_ok (e_rwc ev) n cutoffs us ms ->
  start <= length rows ->
  let res := chunk_loop disc ev mask cutoffs xs ci start chunks ms in
  res <> Pending ->
  (Forall (fun d => d_cols d = n) chunks /\ start + length (chunks_rows chunks) <= length rows /\
   exists ms', res = Ok (start + length (chunks_rows chunks), ms') /\
     acc_ok (e_rwc ev) n cutoffs (us ++ users_of n rows recs start (mrows (opt_mask mask) (chunks_rows chunks) start)) ms')
  \/ (~ (Forall (fun d => d_cols d = n) chunks /\ start + length (chunks_rows chunks) <= length rows) /\ res = Fail ValueError).
Proof.
  intros Hmask Hcut Hx chunks; induction chunks as [|d chunks IH]; intros ci start us ms Hwf Hacc Hst res Hp; unfold res in *.
  - left. cbn [chunks_rows map concat length chunk_loop]. split; [constructor|]. split; [lia|].
    exists ms. rewrite Nat.add_0_r. split; auto. cbn. now rewrite app_nil_r.
  - inversion Hwf as [|? ? Hd Hwf']; subst. cbn [chunk_loop] in *.
    pose proof Hev as [Hrows Hcore Husers Hitems Hthr].
    assert (Hcr : chunks_rows (d :: chunks) = d_rows d ++ chunks_rows chunks) by reflexivity.
    destruct (Nat.eqb_spec (d_cols d) (e_n_items ev)) as [Ed|Ed]; cbn [negb] in *.
    2:{ right. split; auto. intros [HF _]. inversion HF; congruence. }
    destruct (Nat.ltb_spec (e_n_users ev) (start + length (d_rows d))) as [Hlt|Hle].
    { right. split; auto. intros [_ HL]. rewrite Hcr, app_length in HL. lia. }
    destruct (Nat.eqb_spec (length (d_rows d)) 0) as [E0|E0].
    { destruct (d_rows d) eqn:Er; [|discriminate]. cbn [app] in Hcr. rewrite Hcr.
      destruct (IH (S ci) start us ms Hwf' Hacc Hst Hp) as [(HF & HL & ms' & E & Ha)|(HN & E)].
      - left. split; [constructor; auto; congruence|]. split; auto. exists ms'; split; auto.
      - right. split; auto. intros [HF HL]. apply HN. split; auto. now inversion HF. }
    assert (Emask : (match mask with None => Ok d | Some m => apply_mask d (slice m start (start + length (d_rows d))) end)
                    = Ok (mkDense (d_cols d) (mrows (opt_mask mask) (d_rows d) start))).
    { destruct mask as [m|]; cbn [opt_mask] in *.
      - apply apply_mask_ok. rewrite Ed, Hitems. exact Hmask.
      - rewrite mrows_nil. now destruct d. }
    rewrite Emask in *. cbn [obind] in *.
    set (d' := mkDense _ _) in *.
    assert (Hl' : length (d_rows d') = length (d_rows d)) by (cbn; apply mrows_length).
    destruct (merge_cutoffs_ok ev rows recs n Hev d' start (xs ci) us) with (cutoffs := cutoffs) (ms := ms) (k := 0)
      as (ms1 & E1 & Ha1); auto.
    { cbn. apply mrows_shape. unfold dense_wf in Hd. rewrite Ed, Hitems in Hd. exact Hd. }
    { lia. }
    { rewrite Hl'. lia. }
    { intros E. rewrite E in Hp. cbn in Hp. auto. }
    rewrite E1 in *. cbn [obind] in *.
    destruct (IH (S ci) (start + length (d_rows d)) (us ++ users_of n rows recs start (d_rows d')) ms1 Hwf' Ha1)
      as [(HF & HL & ms' & E & Ha)|(HN & E)]; [lia|exact Hp| |].
    + left. split; [constructor; auto; congruence|]. rewrite Hcr, app_length. split; [lia|].
      exists ms'. rewrite E. split; [f_equal; f_equal; lia|].
      rewrite mrows_app, users_of_app, mrows_length.
      rewrite <- app_assoc in Ha. exact Ha.
    + right. split; auto. intros [HF HL]. apply HN. rewrite Hcr, app_length in HL. split; [now inversion HF|lia].
Qed.

(** Users of the specification. *)
Lemma contrib_masked rwc c n rows recs mask scores :
  length scores = length rows ->
  map (u_contrib disc rwc c n) (users_of n rows recs 0 (mrows mask scores 0)) =
  map (u_contrib disc rwc c n) (masked_users n rows recs mask scores).
Proof.
  intros HL. unfold users_of, masked_users. rewrite mrows_length, HL, !map_map. apply map_ext_in. intros k Hk.
  apply in_seq in Hk. cbn [Nat.add].
  set (sc1 := fun i => nth i (nth k (mrows mask scores 0) []) NegInf).
  set (sc2 := fun i => nth i (nth k scores []) NegInf).
  assert (Hsc : forall i, sc1 i = if relevant (nth k mask []) i then NegInf else sc2 i).
  { intros i. unfold sc1, sc2. rewrite mrows_nth by lia. reflexivity. }
  assert (Eh : has_gt (masked_user n rows recs k (nth k mask []) sc2) = has_gt (user_of n rows recs k sc1)) by reflexivity.
  unfold u_contrib. rewrite Eh. destruct (has_gt (user_of n rows recs k sc1)); auto.
  change (u_gt (masked_user n rows recs k (nth k mask []) sc2)) with (u_gt (user_of n rows recs k sc1)).
  f_equal. unfold u_top. cbn [u_score u_elig user_of masked_user].
  assert (Hel : filter (fun i => allowed recs k i && match sc1 i with NegInf => false | _ => true end) (seq 0 n) =
                filter (fun i => allowed recs k i && negb (relevant (nth k mask []) i) &&
                           match sc2 i with NegInf => false | _ => true end) (seq 0 n)).
  { apply filter_ext. intros i. rewrite Hsc. destruct (relevant (nth k mask []) i); cbn [negb];
    rewrite ?andb_false_r, ?andb_true_r; auto. }
  rewrite Hel. apply top_list_ext. intros i Hi. apply filter_In in Hi as [_ Hi].
  rewrite Hsc. destruct (relevant (nth k mask []) i); auto. rewrite andb_false_r in Hi. discriminate.
Qed.

Lemma masked_users_nodup n rows recs mask scores :
  Forall (fun u => NoDup (u_elig u)) (masked_users n rows recs mask scores).
Proof.
  apply Forall_forall. intros u Hu. unfold masked_users in Hu. apply in_map_iff in Hu as (k & <- & _).
  cbn. apply NoDup_filter, seq_NoDup.
Qed.

Lemma n_recommendable_catalog n_rows n recs : recs_ok n_rows n recs -> n_recommendable n recs = catalog_size n recs.
Proof.
  intros [_ HR]. unfold catalog_size. destruct recs as [|r recs]; [reflexivity|].
  assert (HP : forall l, NoDup l -> (forall x, In x l <-> x < n /\ existsb (fun r0 => relevant r0 x) (r :: recs) = true) ->
     length l = length (filter (fun i => existsb (fun r0 => relevant r0 i) (r :: recs)) (seq 0 n))).
  { intros l HN HI. apply Permutation_length. apply NoDup_Permutation; auto.
    - apply NoDup_filter, seq_NoDup.
    - intros x. rewrite HI, filter_In, in_seq. intuition lia. }
  destruct recs as [|r' recs]; cbn [n_recommendable].
  - inversion HR as [|? ? [H1 H2] _]; subst. apply HP; auto. intros x. cbn [existsb]. rewrite orb_false_r, relevant_true.
    rewrite Forall_forall in H2. split; [|tauto]. auto.
  - apply HP; [apply NoDup_nodup|]. intros x. rewrite nodup_In. rewrite existsb_exists. split.
    + intros Hx. apply in_concat in Hx as (l & Hl & Hx). rewrite Forall_forall in HR. destruct (HR l Hl) as [_ HB].
      rewrite Forall_forall in HB. split; auto. exists l; split; auto. now apply relevant_true.
    + intros [_ (l & Hl & Hx)]. apply in_concat. exists l; split; auto. now apply relevant_true.
Qed.

Lemma acc_ok_results ev rows recs n cutoffs us us' ms :
  ev_ok ev rows recs n -> e_n_rec ev = n_recommendable n recs ->
  (forall c, map (u_contrib disc (e_rwc ev) c n) us = map (u_contrib disc (e_rwc ev) c n) us') ->
  Forall (fun u => NoDup (u_elig u)) us' ->
  acc_ok (e_rwc ev) n cutoffs us ms ->
  Forall2 (evaluation_means disc (e_rwc ev) n recs us') cutoffs (map (metrics_as_dict ev) ms).
Proof.
  intros Hev Hrec Hus HN Hacc. pose proof Hev as [_ Hcore _ _ _]. apply make_core_iff in Hcore as [_ Hro].
  rewrite (n_recommendable_catalog _ _ _ Hro) in Hrec.
  induction Hacc as [|c m cs ms Hm Hacc IH]; cbn [map]; constructor; auto.
  rewrite Hus in Hm. destruct (report_of_msum disc (e_rwc ev) c n us' m HN Hm) as [Ht Hr].
  split; [eexists; split; eassumption|]. unfold metrics_as_dict. cbn [snd fst]. rewrite Hrec.
  destruct (Nat.eqb_spec (catalog_size n recs) 0); auto. split; auto. reflexivity.
Qed.

(** Streaming API. *)
Lemma scores_from_chunks_spec ev rows recs n mask chunks cutoffs xs :
  ev_ok ev rows recs n -> e_n_rec ev = n_recommendable n recs ->
  mask_ok n (opt_mask mask) -> cutoffs_ok n cutoffs -> (forall i k, 1 <= x_launched (xs i k)) ->
  Forall dense_wf chunks ->
  let res := scores_from_chunks disc ev mask chunks cutoffs xs in
  res <> Pending ->
  (Forall (fun d => d_cols d = n) chunks /\ length (chunks_rows chunks) = length rows /\
   exists rs, res = Ok rs /\
     Forall2 (evaluation_means disc (e_rwc ev) n recs (masked_users n rows recs (opt_mask mask) (chunks_rows chunks))) cutoffs rs)
  \/ (~ (Forall (fun d => d_cols d = n) chunks /\ length (chunks_rows chunks) = length rows) /\ res = Fail ValueError).
Proof.
  intros Hev Hrec Hmask Hcut Hx Hwf res Hp. unfold res, scores_from_chunks in *.
  pose proof Hev as [_ _ Husers Hitems _].
  set (r := chunk_loop _ _ _ _ _ _ _ _ _) in *.
  assert (Hr : r <> Pending) by (intros E; rewrite E in Hp; cbn in Hp; auto).
  unfold r in *. rewrite Hitems in *.
  destruct (chunk_loop_ok ev rows recs n Hev mask cutoffs xs Hmask Hcut Hx chunks 0 0 [] _ Hwf (acc_ok_nil _ _ _) (Nat.le_0_l _) Hr)
    as [(HF & HL & ms' & E & Ha)|(HN & E)]; rewrite E in *; cbn [obind Nat.add app] in *.
  - rewrite Husers. destruct (Nat.eqb_spec (length (chunks_rows chunks)) (length rows)) as [El|El].
    + left. repeat split; auto. eexists; split; [reflexivity|].
      refine (acc_ok_results _ _ _ _ _ _ _ _ Hev Hrec _ (masked_users_nodup _ _ _ _ _) Ha). intros c. apply contrib_masked. auto.
    + right. split; auto. intros [_ H]; contradiction.
  - right. split; auto. intros [H1 H2]. apply HN. split; auto. lia.
Qed.

(** ** Whole matrices *)
Lemma chunk_concat {X} step (l : list X) K :
  concat (map (fun k => firstn step (skipn (step * k) l)) (seq 0 K)) = firstn (step * K) l.
Proof.
  induction K as [|K IH]; [now rewrite Nat.mul_0_r|].
  rewrite seq_S, map_app, concat_app, IH. cbn [map concat]. rewrite app_nil_r, Nat.add_0_l.
  rewrite Nat.mul_succ_r, firstn_add. reflexivity.
Qed.

Lemma ceil_mul N step : 1 <= step -> N <= step * ((N + step - 1) / step).
Proof.
  intros H. pose proof (Nat.div_mod (N + step - 1) step ltac:(lia)).
  pose proof (Nat.mod_upper_bound (N + step - 1) step ltac:(lia)). lia.
Qed.
Lemma ceil_lt N step k : 1 <= step -> k < (N + step - 1) / step -> step * k < N.
Proof.
  intros H Hk. pose proof (Nat.div_mod (N + step - 1) step ltac:(lia)).
  set (q := (N + step - 1) / step) in *. assert (step * S k <= step * q) by (apply Nat.mul_le_mono_l; lia). lia.
Qed.

Lemma scores_from_matrix_spec ev rows recs n mask scores cutoffs xs :
  ev_ok ev rows recs n -> e_n_rec ev = n_recommendable n recs ->
  mask_ok n (opt_mask mask) -> cutoffs_ok n cutoffs -> (forall i k, 1 <= x_launched (xs i k)) ->
  dense_wf scores -> d_cols scores = n -> length (d_rows scores) = length rows ->
  (0 < e_mb_size ev)%Z ->
  let res := scores_from_matrix disc ev mask scores cutoffs xs in
  res <> Pending ->
  exists rs, res = Ok rs /\
     Forall2 (evaluation_means disc (e_rwc ev) n recs (masked_users n rows recs (opt_mask mask) (d_rows scores))) cutoffs rs.
Proof.
  intros Hev Hrec Hmask Hcut Hx Hwf Hcols Hlen Hmb res Hp. unfold res, scores_from_matrix in *. clear res.
  pose proof Hev as [_ _ Husers Hitems _].
  rewrite Hlen, Husers, Hcols, Hitems, !Nat.eqb_refl in *. cbn [andb negb] in *.
  unfold chunk_starts in *.
  destruct (Z.eqb_spec (e_mb_size ev) 0); [lia|]. destruct (Z.ltb_spec (e_mb_size ev) 0); [lia|].
  cbn [obind] in *. set (step := Z.to_nat (e_mb_size ev)) in *.
  assert (Hstep : 1 <= step) by (unfold step; lia).
  rewrite Nat.sub_0_r, map_map in *.
  set (chunks := map _ (seq 0 _)) in *.
  assert (Hrows : chunks_rows chunks = d_rows scores).
  { unfold chunks_rows, chunks. rewrite map_map. cbn [d_rows].
    rewrite (map_ext _ (fun k => firstn step (skipn (step * k) (d_rows scores)))).
    - rewrite chunk_concat. apply firstn_all2. rewrite Hlen. now apply ceil_mul.
    - intros k. unfold slice. cbn [Nat.add]. f_equal. lia. }
  destruct (scores_from_chunks_spec ev rows recs n mask chunks cutoffs xs Hev Hrec Hmask Hcut Hx) as [HA|[HA _]]; auto.
  - unfold chunks. apply Forall_forall. intros d Hd. apply in_map_iff in Hd as (k & <- & _). unfold dense_wf. cbn.
    apply slice_forall. unfold dense_wf in Hwf. now rewrite Hcols in Hwf.
  - destruct HA as (_ & _ & rs & E & HF). exists rs. rewrite E. split; auto. now rewrite Hrows in HF.
  - exfalso. apply HA. rewrite Hrows. split; auto. unfold chunks. apply Forall_forall.
    intros d Hd. apply in_map_iff in Hd as (k & <- & _). auto.
Qed.

(** ** Recommender models *)
(** The score rows returned for users [a..b-1]. *)


Lemma model_loop_ok ev rows recs n (Hev : ev_ok ev rows recs n) md S cutoffs xs :
  let off := e_offset ev in
  let N := length rows in
  let step := Z.to_nat (e_mb_size ev) in
  (0 < e_mb_size ev)%Z ->
  length S = N -> Forall (fun r => length r = n) S ->
  (forall a b, a < b <= N -> md_rows md (off + a) (off + b) = mkDense n (slice S a b)) ->
  mask_ok n (eval_mask ev md) ->
  cutoffs_ok n cutoffs -> (forall i k, 1 <= x_launched (xs i k)) ->
  forall K k ci ms,
  k + K = (N + step - 1) / step ->
  acc_ok (e_rwc ev) n cutoffs (users_of n rows recs 0 (mrows (eval_mask ev md) (firstn (step * k) S) 0)) ms ->
  let res := model_loop disc ev md cutoffs xs (off + N) ci (map (fun k => off + step * k) (seq k K)) ms in
  res <> Pending ->
  exists ms', res = Ok ms' /\ acc_ok (e_rwc ev) n cutoffs (users_of n rows recs 0 (mrows (eval_mask ev md) S 0)) ms'.
Proof.
  intros off N step Hmb HS HSn Hmd Hmask Hcut Hx.
  assert (Hstep : 1 <= step) by (unfold step; lia).
  pose proof Hev as [_ _ Husers Hitems _].
  induction K as [|K IH]; intros k ci ms Hk Hacc res Hp; unfold res in *; clear res.
  - cbn [seq map model_loop]. exists ms; split; auto.
    rewrite Nat.add_0_r in Hk. subst k. rewrite firstn_all2 in Hacc; auto. rewrite HS. now apply ceil_mul.
  - cbn [seq map model_loop] in *. fold step in Hp |- *.
    set (a := step * k) in *. set (b := min (a + step) N).
    assert (Ha : a < N) by (unfold a; apply ceil_lt; auto; lia).
    assert (Hb : a < b <= N) by (unfold b; lia).
    assert (Eend : min (off + a + step) (off + N) = off + b) by (unfold b; lia).
    rewrite Eend in Hp |- *. fold off in Hp |- *.
    fold (md_rows md (off + a) (off + b)) in Hp |- *. rewrite Hmd in * by auto.
    assert (Emask : match e_masked ev with
                  | None => slice (md_train md) (off + a) (off + b)
                  | Some m => slice m (off + a - off) (off + b - off)
                  end = slice (eval_mask ev md) a b).
    { unfold eval_mask. destruct (e_masked ev).
      - f_equal; lia.
      - rewrite Husers. fold off. symmetry. apply slice_slice. apply Hb. }
    rewrite Emask in *. replace (off + a - off) with a in * by lia.
    set (d := mkDense n (slice S a b)) in *.
    assert (Hdl : length (d_rows d) = b - a) by (cbn; apply slice_length; lia).
    assert (Eb : b = a + length (d_rows d)) by lia.
    assert (Eam : apply_mask d (slice (eval_mask ev md) a b) = Ok (mkDense n (mrows (eval_mask ev md) (slice S a b) a))).
    { rewrite Eb at 1. exact (apply_mask_ok d (eval_mask ev md) a Hmask). }
    rewrite Eam in *. cbn [obind] in *.
    edestruct (merge_cutoffs_ok ev rows recs n Hev (mkDense n (mrows (eval_mask ev md) (slice S a b) a)) a (xs ci))
      with (cutoffs := cutoffs) (ms := ms) (k := 0) as (ms1 & E1 & Ha1); eauto.
    { cbn [d_rows]. apply mrows_shape. now apply slice_forall. }
    { cbn [d_rows]. rewrite mrows_length. cbn [d d_rows] in Hdl. rewrite Hdl. fold N. lia. }
    { intros E. rewrite E in Hp. cbn in Hp. auto. }
    rewrite E1 in *. cbn [obind d_rows] in *.
    replace (map (fun k0 => off + step * k0) (seq (Datatypes.S k) K)) with (map (fun k0 => off + step * k0) (seq (Datatypes.S k) K)) in * by reflexivity.
    apply (IH (Datatypes.S k) (Datatypes.S ci) ms1); auto; [lia|].
    assert (Efirst : firstn (step * Datatypes.S k) S = firstn a S ++ slice S a b).
    { rewrite <- firstn_slice by lia. destruct (Nat.le_gt_cases (a + step) N).
      - f_equal. unfold a, b in *. lia.
      - rewrite !firstn_all2; auto; unfold b, a in *; lia. }
    rewrite Efirst, mrows_app, users_of_app, mrows_length. cbn [Nat.add].
    assert (Ela : length (firstn a S) = a) by (rewrite firstn_length; lia).
    rewrite Ela. exact Ha1.
Qed.

Lemma scores_from_model_spec ev rows recs n md S cutoffs xs :
  ev_ok ev rows recs n -> e_n_rec ev = n_recommendable n recs ->
  (0 < e_mb_size ev)%Z ->
  e_offset ev + length rows <= md_n_users md -> md_n_items md = n ->
  length S = length rows -> Forall (fun r => length r = n) S ->
  (forall a b, a < b <= length rows -> md_rows md (e_offset ev + a) (e_offset ev + b) = mkDense n (slice S a b)) ->
  mask_ok n (eval_mask ev md) ->
  cutoffs_ok n cutoffs -> (forall i k, 1 <= x_launched (xs i k)) ->
  let res := scores_from_model disc ev md cutoffs xs in
  res <> Pending ->
  exists rs, res = Ok rs /\
     Forall2 (evaluation_means disc (e_rwc ev) n recs (masked_users n rows recs (eval_mask ev md) S)) cutoffs rs.
Proof.
  intros Hev Hrec Hmb Hus Hit HS HSn Hmd Hmask Hcut Hx res Hp. unfold res, scores_from_model in *. clear res.
  pose proof Hev as [_ _ Husers Hitems _]. rewrite Husers, Hitems, Hit in *.
  destruct (Nat.ltb_spec (md_n_users md) (e_offset ev + length rows)); [lia|].
  rewrite Nat.eqb_refl in *. cbn [negb] in *. unfold chunk_starts in *.
  destruct (Z.eqb_spec (e_mb_size ev) 0); [lia|]. destruct (Z.ltb_spec (e_mb_size ev) 0); [lia|].
  cbn [obind] in *. replace (e_offset ev + length rows - e_offset ev) with (length rows) in * by lia.
  set (loop := model_loop _ _ _ _ _ _ _ _ _) in *.
  assert (Hl : loop <> Pending) by (intros E; rewrite E in Hp; cbn in Hp; auto).
  pose proof (model_loop_ok ev rows recs n Hev md S cutoffs xs Hmb HS HSn Hmd Hmask Hcut Hx
     ((length rows + Z.to_nat (e_mb_size ev) - 1) / Z.to_nat (e_mb_size ev)) 0 0 (map (fun _ => empty_metrics n) cutoffs) eq_refl) as G.
  cbv zeta in G. destruct G as (ms' & E & Ha); [|exact Hl|].
  - rewrite Nat.mul_0_r. cbn [firstn]. apply acc_ok_nil.
  - unfold loop in *. rewrite E. cbn [omap obind]. eexists; split; [reflexivity|].
    refine (acc_ok_results _ _ _ _ _ _ _ _ Hev Hrec _ (masked_users_nodup _ _ _ _ _) Ha). intros c. now apply contrib_masked.
Qed.

(** ** Cold users *)
Lemma cold_loop_ok ce rows recs n (Hev : ev_ok (ce_base ce) rows recs n) md scorer F cutoffs xs :
  let ev := ce_base ce in
  let N := length rows in
  let step := Z.to_nat (e_mb_size ev) in
  let S := map F (sp_nz (ce_input ce)) in
  (0 < e_mb_size ev)%Z ->
  length (sp_nz (ce_input ce)) = N -> (forall r, length (F r) = n) ->
  (match scorer with
   | Some f => (forall l, f l = None) /\ (forall l, pad_cold ce (cm_cold md l) = mkDense n (map F l)) \/
               (forall l, exists d, f l = Some d /\ pad_cold ce d = mkDense n (map F l))
   | None => forall l, pad_cold ce (cm_cold md l) = mkDense n (map F l)
   end) ->
  mask_ok n (cold_mask ce) ->
  cutoffs_ok n cutoffs -> (forall i k, 1 <= x_launched (xs i k)) ->
  forall K k ci sc ms,
  k + K = (N + step - 1) / step ->
  (sc = scorer \/ (sc = None /\ forall l, pad_cold ce (cm_cold md l) = mkDense n (map F l))) ->
  acc_ok (e_rwc ev) n cutoffs (users_of n rows recs 0 (mrows (cold_mask ce) (firstn (step * k) S) 0)) ms ->
  let res := cold_loop disc ce md cutoffs xs sc N ci (map (fun k => step * k) (seq k K)) ms in
  res <> Pending ->
  exists ms', res = Ok ms' /\ acc_ok (e_rwc ev) n cutoffs (users_of n rows recs 0 (mrows (cold_mask ce) S 0)) ms'.
Proof.
  intros ev N step S Hmb HI HF Hsc Hmask Hcut Hx.
  assert (Hstep : 1 <= step) by (unfold step; lia).
  assert (HS : length S = N) by (unfold S; now rewrite map_length).
  assert (HSn : Forall (fun r => length r = n) S).
  { apply Forall_forall. intros r Hr. unfold S in Hr. apply in_map_iff in Hr as (x & <- & _). auto. }
  induction K as [|K IH]; intros k ci sc ms Hk Hs Hacc res Hp; unfold res in *; clear res.
  - cbn [seq map cold_loop]. exists ms; split; auto.
    rewrite Nat.add_0_r in Hk. subst k. rewrite firstn_all2 in Hacc; auto. rewrite HS. now apply ceil_mul.
  - cbn [seq map cold_loop] in *. fold ev in Hp |- *. fold step in Hp |- *.
    set (a := step * k) in *. set (b := min (a + step) N) in *.
    assert (Ha : a < N) by (unfold a; apply ceil_lt; auto; lia).
    assert (Hb : a < b <= N) by (unfold b; lia).
    set (ichunk := slice (sp_nz (ce_input ce)) a b) in *.
    set (dd := match sc with
        | Some f => match f ichunk with Some d => (d, sc) | None => (cm_cold md ichunk, None) end
        | None => (cm_cold md ichunk, None) end) in *.
    assert (Hdd : pad_cold ce (fst dd) = mkDense n (slice S a b) /\
                  (snd dd = scorer \/ (snd dd = None /\ forall l, pad_cold ce (cm_cold md l) = mkDense n (map F l)))).
    { unfold S. rewrite slice_map. fold ichunk. unfold dd. destruct Hs as [->|[-> Hs]].
      - destruct scorer as [f|].
        + destruct Hsc as [[H1 H2]|H1].
          * rewrite H1. cbn [fst snd]. auto.
          * destruct (H1 ichunk) as (d & E & Ed). rewrite E. cbn [fst snd]. auto.
        + cbn [fst snd]. auto.
      - cbn [fst snd]. auto. }
    destruct dd as [d sc']. cbn [fst snd] in Hdd. destruct Hdd as [Hd Hs'].
    rewrite Hd in *.
    assert (Hdl : length (slice S a b) = b - a) by (apply slice_length; lia).
    assert (Eam : apply_mask (mkDense n (slice S a b)) (slice (cold_mask ce) a b) = Ok (mkDense n (mrows (cold_mask ce) (slice S a b) a))).
    { pose proof (apply_mask_ok (mkDense n (slice S a b)) (cold_mask ce) a Hmask) as E. cbn [d_rows d_cols] in E.
      rewrite Hdl in E. replace (a + (b - a)) with b in E by lia. exact E. }
    rewrite Eam in *. cbn [obind] in *.
    edestruct (merge_cutoffs_ok ev rows recs n Hev (mkDense n (mrows (cold_mask ce) (slice S a b) a)) a (xs ci))
      with (cutoffs := cutoffs) (ms := ms) (k := 0) as (ms1 & E1 & Ha1); eauto.
    { cbn [d_rows]. apply mrows_shape. now apply slice_forall. }
    { cbn [d_rows]. rewrite mrows_length, Hdl. fold N. lia. }
    { intros E. rewrite E in Hp. cbn in Hp. auto. }
    rewrite E1 in *. cbn [obind d_rows] in *.
    apply (IH (Datatypes.S k) (Datatypes.S ci) sc' ms1); auto; [lia|].
    assert (Efirst : firstn (step * Datatypes.S k) S = firstn a S ++ slice S a b).
    { rewrite <- firstn_slice by lia. destruct (Nat.le_gt_cases (a + step) N).
      - f_equal. unfold a, b in *. lia.
      - rewrite !firstn_all2; auto; unfold b, a in *; lia. }
    rewrite Efirst, mrows_app, users_of_app, mrows_length. cbn [Nat.add].
    assert (Ela : length (firstn a S) = a) by (rewrite firstn_length; lia).
    rewrite Ela. exact Ha1.
Qed.

Lemma cold_scores_spec ce rows recs n md F cutoffs xs :
  let ev := ce_base ce in
  ev_ok ev rows recs n -> e_n_rec ev = n_recommendable n recs ->
  e_offset ev = 0 -> (0 < e_mb_size ev)%Z ->
  cm_n_items md = ce_n_warm ce ->
  length (sp_nz (ce_input ce)) = length rows -> (forall r, length (F r) = n) ->
  (match (if ce_features ce then cm_feature md else None) with
   | Some f => (forall l, f l = None) /\ (forall l, pad_cold ce (cm_cold md l) = mkDense n (map F l)) \/
               (forall l, exists d, f l = Some d /\ pad_cold ce d = mkDense n (map F l))
   | None => forall l, pad_cold ce (cm_cold md l) = mkDense n (map F l)
   end) ->
  mask_ok n (cold_mask ce) ->
  cutoffs_ok n cutoffs -> (forall i k, 1 <= x_launched (xs i k)) ->
  let res := cold_scores_from_model disc ce md cutoffs xs in
  res <> Pending ->
  exists rs, res = Ok rs /\
     Forall2 (evaluation_means disc (e_rwc ev) n recs
       (masked_users n rows recs (cold_mask ce) (map F (sp_nz (ce_input ce))))) cutoffs rs.
Proof.
  intros ev Hev Hrec Hoff Hmb Hit HI HF Hsc Hmask Hcut Hx res Hp. unfold res, cold_scores_from_model in *. clear res.
  pose proof Hev as [_ _ Husers Hitems _]. fold ev in Hp |- *. rewrite Hoff, Husers, Hitems, Hit in *.
  rewrite Nat.eqb_refl in *. cbn [negb] in *. unfold chunk_starts in *.
  destruct (Z.eqb_spec (e_mb_size ev) 0); [lia|]. destruct (Z.ltb_spec (e_mb_size ev) 0); [lia|].
  cbn [obind Nat.add] in *. rewrite Nat.sub_0_r in *.
  set (loop := cold_loop _ _ _ _ _ _ _ _ _ _) in *.
  assert (Hl : loop <> Pending) by (intros E; rewrite E in Hp; cbn in Hp; auto).
  pose proof (cold_loop_ok ce rows recs n Hev md _ F cutoffs xs Hmb HI HF Hsc Hmask Hcut Hx
     ((length rows + Z.to_nat (e_mb_size ev) - 1) / Z.to_nat (e_mb_size ev)) 0 0 _ (map (fun _ => empty_metrics n) cutoffs) eq_refl (or_introl eq_refl)) as G.
  cbv zeta in G. destruct G as (ms' & E & Ha); [|exact Hl|].
  - rewrite Nat.mul_0_r. cbn [firstn]. apply acc_ok_nil.
  - change (cold_loop disc ce md cutoffs xs (if ce_features ce then cm_feature md else None) (length rows) 0
      (map (fun k => Z.to_nat (e_mb_size (ce_base ce)) * k)
      (seq 0 ((length rows + Z.to_nat (e_mb_size ev) - 1) / Z.to_nat (e_mb_size ev)))) (map (fun _ => empty_metrics n) cutoffs)) with loop in E.
    rewrite E. cbn [omap obind]. eexists; split; [reflexivity|].
    refine (acc_ok_results _ _ _ _ _ _ _ _ Hev Hrec _ (masked_users_nodup _ _ _ _ _) Ha). intros c. apply contrib_masked. now rewrite map_length.
Qed.

(** ** Termination under fair schedules *)

Lemma update_loop_returns gt recs : forall n i s, update_loop disc n gt i recs s <> Pending.
Proof.
  induction recs as [|r recs IH]; intros n i [[[dc h] ap] cnt]; cbn [update_loop]; [discriminate|].
  destruct (nth_error cnt r); [|discriminate]. destruct (nat_mem _ _); auto. destruct (nth_error _ _); [auto|discriminate].
Qed.

Lemma get_metrics_returns c s cutoff offset n_threads rwc x :
  fair_exec (length (c_rows c)) n_threads x ->
  get_metrics disc c s cutoff offset n_threads rwc x <> Pending.
Proof.
  intros [F1 F2]. unfold get_metrics, check_arg, await.
  destruct (0 <? n_threads); [|discriminate].
  unfold cache_pool at 1. rewrite (fair_completes (length (c_rows c)) 1) by (auto; apply F1).
  destruct (offset <? length (c_rows c)); [|discriminate].
  destruct (Nat.leb_spec (offset + b_rows s) (length (c_rows c))); [|discriminate].
  destruct (0 <? cutoff); [|discriminate]. destruct (cutoff <=? c_n_items c); [|discriminate].
  unfold metric_pool. rewrite (fair_completes (b_rows s) 1).
  - unfold merge_workers. 
    assert (G : forall ws m, (forall w : worker (outcome metrics), In w ws -> w_acc w <> Pending) ->
       ofold (fun acc w => omap (merge acc) (w_acc w)) ws m <> Pending).
    { induction ws as [|w ws IH]; intros m Hw; cbn [ofold]; [discriminate|].
      pose proof (Hw w (or_introl eq_refl)). destruct (w_acc w); cbn [omap obind]; try discriminate; try congruence.
      apply IH. intros; apply Hw; now right. }
    apply G.
    assert (R : forall u a, a <> Pending -> row_work disc c (cache_X_map c (x_launched x) (x_cache_sched x)) (b_data s) cutoff offset rwc u a <> Pending).
    { intros u a Ha. unfold row_work. destruct a; cbn [obind]; try discriminate; try congruence.
      destruct (nth_error _ _) as [gt|]; [|discriminate]. destruct gt; [discriminate|].
      unfold ranking. assert (C : forall items, collect (b_data s) (c_n_items c * u) items <> Pending).
      { induction items as [|i items IH]; cbn [collect]; [discriminate|]. destruct (nth_error _ _); [|discriminate].
        destruct (collect (b_data s) (c_n_items c * u) items); cbn [omap obind]; congruence. }
      specialize (C (offered_items c (u + offset))).
      destruct (collect _ _ _); cbn [omap obind]; try discriminate; try congruence.
      unfold update. destruct (_ =? 0); [discriminate|]. destruct (_ <? _); [discriminate|].
      destruct (_ =? 0); [discriminate|].
      match goal with |- context[update_loop ?d ?a ?b ?i ?r ?s] =>
        pose proof (update_loop_returns b r a i s) as U; destruct (update_loop d a b i r s) as [[[[? ?] ?] ?]| | |]; cbn [obind]; congruence end. }
    destruct (inv_run (b_rows s) 1 (row_work disc c (cache_X_map c (x_launched x) (x_cache_sched x)) (b_data s) cutoff offset rwc)
       (fun _ x => x) n_threads (Ok (empty_metrics (c_n_items c))) tt (x_sched x) (le_n 1)) as (logs & glog & HI).
    destruct HI as [_ Hacc _ _ _ _]. intros w Hw.
    assert (Hin : In (w_acc w) (map w_acc (p_workers (run_pool (b_rows s) 1
          (row_work disc c (cache_X_map c (x_launched x) (x_cache_sched x)) (b_data s) cutoff offset rwc)
          (fun _ x => x) (x_sched x) (init_pool n_threads (Ok (empty_metrics (c_n_items c))) tt))))) by (now apply in_map).
    rewrite Hacc in Hin. apply in_map_iff in Hin as (log & <- & _). unfold fold_acc.
    assert (Hok : Ok (empty_metrics (c_n_items c)) <> Pending) by discriminate. revert Hok.
    generalize (Ok (empty_metrics (c_n_items c))) as a0. induction log as [|r log IH]; intros a0 Ha0; cbn [fold_left]; auto.
  - auto.
  - intros t Ht. specialize (F2 t Ht). lia.
Qed.

Lemma obind_returns {A B} (x : outcome A) (f : A -> outcome B) :
  x <> Pending -> (forall a, x = Ok a -> f a <> Pending) -> obind x f <> Pending.
Proof. destruct x; cbn; intros H1 H2; auto; discriminate. Qed.

Lemma merge_cutoffs_returns ev d begin xs cutoffs : forall ms k,
  (forall j, fair_exec (length (c_rows (e_core ev))) (e_n_threads ev) (xs j)) ->
  merge_cutoffs disc ev d begin xs k cutoffs ms <> Pending.
Proof.
  induction cutoffs as [|c cs IH]; intros ms k H; cbn [merge_cutoffs]; [discriminate|].
  destruct ms; [discriminate|]. apply obind_returns; [now apply get_metrics_returns|].
  intros r _. apply obind_returns; [auto|discriminate].
Qed.
Lemma apply_mask_returns d m : apply_mask d m <> Pending.
Proof. unfold apply_mask. destruct (mask_in_range _ _); discriminate. Qed.

Lemma chunk_loop_returns ev mask cutoffs xs chunks : forall ci start ms,
  (forall i j, fair_exec (length (c_rows (e_core ev))) (e_n_threads ev) (xs i j)) ->
  chunk_loop disc ev mask cutoffs xs ci start chunks ms <> Pending.
Proof.
  induction chunks as [|d chunks IH]; intros ci start ms H; cbn [chunk_loop]; [discriminate|].
  destruct (negb _); [discriminate|]. destruct (_ <? _); [discriminate|]. destruct (_ =? 0); [auto|].
  apply obind_returns.
  - destruct mask; [apply apply_mask_returns|discriminate].
  - intros d' _. apply obind_returns; [now apply merge_cutoffs_returns|auto].
Qed.

Lemma scores_from_chunks_returns ev mask chunks cutoffs xs :
  (forall i j, fair_exec (length (c_rows (e_core ev))) (e_n_threads ev) (xs i j)) ->
  scores_from_chunks disc ev mask chunks cutoffs xs <> Pending.
Proof.
  intros H. unfold scores_from_chunks. apply obind_returns; [now apply chunk_loop_returns|].
  intros [s ms] _. destruct (_ =? _); discriminate.
Qed.
Lemma scores_from_matrix_returns ev mask scores cutoffs xs :
  (forall i j, fair_exec (length (c_rows (e_core ev))) (e_n_threads ev) (xs i j)) ->
  scores_from_matrix disc ev mask scores cutoffs xs <> Pending.
Proof.
  intros H. unfold scores_from_matrix. destruct (negb _); [discriminate|]. apply obind_returns.
  - unfold chunk_starts. destruct (_ =? 0)%Z; [discriminate|]. destruct (_ <? 0)%Z; discriminate.
  - intros; now apply scores_from_chunks_returns.
Qed.
Lemma model_loop_returns ev md cutoffs xs be starts : forall ci ms,
  (forall i j, fair_exec (length (c_rows (e_core ev))) (e_n_threads ev) (xs i j)) ->
  model_loop disc ev md cutoffs xs be ci starts ms <> Pending.
Proof.
  induction starts as [|s starts IH]; intros ci ms H; cbn [model_loop]; [discriminate|].
  apply obind_returns; [apply apply_mask_returns|]. intros d' _.
  apply obind_returns; [now apply merge_cutoffs_returns|auto].
Qed.
Lemma scores_from_model_returns ev md cutoffs xs :
  (forall i j, fair_exec (length (c_rows (e_core ev))) (e_n_threads ev) (xs i j)) ->
  scores_from_model disc ev md cutoffs xs <> Pending.
Proof.
  intros H. unfold scores_from_model. destruct (_ <? _); [discriminate|]. destruct (negb _); [discriminate|].
  apply obind_returns.
  - unfold chunk_starts. destruct (_ =? 0)%Z; [discriminate|]. destruct (_ <? 0)%Z; discriminate.
  - intros starts _. apply obind_returns; [now apply model_loop_returns|discriminate].
Qed.
End Py.

(** ** Uniqueness of the report *)
Lemma tops_of_unique cutoff us tops : Forall (fun u => NoDup (u_elig u)) us ->
  tops_of cutoff us tops -> tops = map (u_top cutoff) (valid_users us).
Proof.
  intros HN H. unfold tops_of in H.
  assert (HN' : Forall (fun u => NoDup (u_elig u)) (valid_users us)).
  { apply Forall_forall. intros u Hu. apply filter_In in Hu as [Hu _]. rewrite Forall_forall in HN; auto. }
  revert HN'. induction H as [|u l us' tops' Hu H IH]; intros HN'; auto. inversion HN'; subst. cbn [map]. f_equal; auto.
  now apply is_top_unique.
Qed.

Lemma sorted_le_perm_eq : forall l l' : list nat, StronglySorted le l -> StronglySorted le l' -> Permutation l l' -> l = l'.
Proof.
  induction l as [|a l IH]; intros l' S1 S2 HP; [symmetry; now apply Permutation_nil|].
  destruct l' as [|b l']; [symmetry in HP; now apply Permutation_nil in HP|].
  inversion S1 as [|? ? S1' F1]; inversion S2 as [|? ? S2' F2]; subst. rewrite Forall_forall in F1, F2.
  assert (a = b).
  { pose proof (Permutation_in a HP (or_introl eq_refl)) as [->|H1]; auto.
    symmetry in HP. pose proof (Permutation_in b HP (or_introl eq_refl)) as [->|H2]; auto.
    specialize (F1 _ H2). specialize (F2 _ H1). lia. }
  subst b. f_equal. apply IH; auto. eapply Permutation_cons_inv; eauto.
Qed.
Lemma shares_unique cnt ps ps' : shares_of cnt ps -> shares_of cnt ps' -> ps = ps'.
Proof.
  intros (c1 & S1 & P1 & ->) (c2 & S2 & P2 & ->). f_equal. apply sorted_le_perm_eq; auto. rewrite P1. now symmetry.
Qed.

Lemma report_means_unique disc rwc n us tops r1 r2 :
  report_means disc rwc n us tops r1 -> report_means disc rwc n us tops r2 -> same_report r1 r2.
Proof.
  intros [] []. constructor; try congruence; try (eapply shares_unique; eassumption);
  match goal with H1 : (?f ?x == ?z)%Q, H2 : (?f ?y == ?z)%Q |- (?f ?x == ?f ?y)%Q => rewrite H1, H2; reflexivity end.
Qed.

Lemma evaluation_means_unique disc rwc n recs us cutoff r1 r2 :
  Forall (fun u => NoDup (u_elig u)) us ->
  evaluation_means disc rwc n recs us cutoff r1 -> evaluation_means disc rwc n recs us cutoff r2 -> same_result r1 r2.
Proof.
  intros HN [(t1 & T1 & R1) C1] [(t2 & T2 & R2) C2].
  rewrite (tops_of_unique _ _ _ HN T1) in R1. rewrite (tops_of_unique _ _ _ HN T2) in R2.
  pose proof (report_means_unique _ _ _ _ _ _ _ R1 R2) as HS. split; auto.
  unfold same_coverage. destruct (snd r1), (snd r2); auto; try tauto.
  destruct C1 as [_ C1], C2 as [_ C2]. rewrite C1, C2, (sr_appeared _ _ HS). reflexivity.
Qed.

Lemma evaluations_unique disc rwc n recs us cutoffs rs1 rs2 :
  Forall (fun u => NoDup (u_elig u)) us ->
  Forall2 (evaluation_means disc rwc n recs us) cutoffs rs1 ->
  Forall2 (evaluation_means disc rwc n recs us) cutoffs rs2 -> Forall2 same_result rs1 rs2.
Proof.
  intros HN H1. revert rs2. induction H1 as [|c r1 cs rs1 Hr H1 IH]; intros rs2 H2; inversion H2; subst; constructor; auto.
  eapply evaluation_means_unique; eauto.
Qed.

(** ** Constructor *)
Lemma make_evaluator_ok gt n offset rec per_user masked n_threads rwc mb ev :
  make_evaluator gt n offset rec per_user masked n_threads rwc mb = Ok ev ->
  exists recs,
    recommendable_arg (length gt) rec per_user = Ok recs /\
    make_core gt n recs = Ok (e_core ev) /\
    e_n_users ev = length gt /\ e_n_items ev = n /\ e_n_threads ev = n_threads /\
    e_n_rec ev = n_recommendable n recs /\ e_offset ev = offset /\ e_rwc ev = rwc /\ e_mb_size ev = mb /\
    e_masked ev = (match masked with None => None | Some m => Some (sp_nz m) end) /\
    match masked with None => True | Some m => length (sp_nz m) = length gt /\ sp_cols m = n end.
Proof.
  unfold make_evaluator. destruct (recommendable_arg _ _ _) as [arg| | |]; cbn [obind]; try discriminate.
  destruct (make_core gt n arg) as [c| | |] eqn:Ec; cbn [obind]; try discriminate.
  destruct masked as [m|].
  - destruct (Nat.eqb_spec (length (sp_nz m)) (length gt)), (Nat.eqb_spec (sp_cols m) n); cbn [andb]; try discriminate.
    intros [= <-]. exists arg. cbn. repeat split; auto.
  - intros [= <-]. exists arg. cbn. repeat split; auto.
Qed.
