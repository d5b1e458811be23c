(** Proofs about the history of a search. *)
From Coq Require Import String.
From Coq Require Import List.
From Verif Require Import Base EarlyStop_Model PyStr_Model Tune_Model Tune_Spec Tune_Proofs History_Model History_Spec.
From Coq Require Import DecimalN.
Local Open Scope nat_scope.

(** ** Names *)
Lemma strip_app p : forall s, strip_prefix p (p ++ s) = Some s.
Proof. induction p as [|c p IH]; intros s; cbn; [reflexivity|]. rewrite Z.eqb_refl. apply IH. Qed.
Lemma rename_params k : rename (params_ ++ k) = k.
Proof. unfold rename. replace (strip_prefix user_attrs_ (params_ ++ k)) with (@None pystr) by reflexivity. rewrite strip_app. reflexivity. Qed.
Lemma rename_attrs k : rename (user_attrs_ ++ k) = k.
Proof. unfold rename. rewrite strip_app. reflexivity. Qed.
Lemma renamed_columns s : map rename (f_columns (trials_dataframe s)) =
  front_columns ++ names_of t_params s ++ names_of t_attrs s ++ [state_column].
Proof.
  unfold trials_dataframe. cbn [f_columns]. rewrite !map_app, !map_map.
  f_equal. f_equal; [|f_equal].
  - rewrite <- (map_id (names_of t_params s)) at 2. apply map_ext. apply rename_params.
  - rewrite <- (map_id (names_of t_attrs s)) at 2. apply map_ext. apply rename_attrs.
Qed.
Lemma in_names f s k : In k (names_of f s) <-> exists t, In t s /\ In k (keys (f t)).
Proof. unfold names_of, keys. rewrite nodup_In, in_flat_map. reflexivity. Qed.

Lemma digits_inj u : forall v, digits u = digits v -> u = v.
Proof. induction u; intros [] H; cbn in H; try discriminate; try reflexivity; injection H as H; f_equal; auto. Qed.
Lemma digits_at u : ~ In 64%Z (digits u).
Proof. induction u; cbn; intros H; try tauto; destruct H as [H|H]; try discriminate; tauto. Qed.
Lemma show_inj a b : show a = show b -> a = b.
Proof. intros H. apply Unsigned.to_uint_inj. apply digits_inj, H. Qed.
Lemma label_inj c c' k k' : ~ In 64%Z k -> ~ In 64%Z k' -> score_label c k = score_label c' k' -> c = c' /\ k = k'.
Proof.
  unfold score_label. revert k'. induction k as [|x k IH]; intros [|y k'] H H' E; cbn in E.
  - injection E as E. apply show_inj in E. auto.
  - injection E as E1 _. subst y. exfalso. apply H'. now left.
  - injection E as E1 _. subst x. exfalso. apply H. now left.
  - injection E as -> E. destruct (IH k') as [-> ->]; auto; intros I; [apply H|apply H']; now right.
Qed.
Lemma label_at c k : In 64%Z (score_label c k).
Proof. unfold score_label. apply in_or_app. right. now left. Qed.

Lemma report_get_in r k v : report_get r k = Some v -> In (k, v) r.
Proof. induction r as [|[k' v'] r IH]; cbn; [discriminate|]. destruct (pystr_eqb_spec k' k) as [->|]; [intros [= ->]; now left|intros H; right; auto]. Qed.
Lemma report_get_some r k v : NoDup (map fst r) -> In (k, v) r -> report_get r k = Some v.
Proof.
  induction r as [|[k' v'] r IH]; intros N I; [destruct I|]. cbn in N. inversion N as [|? ? N1 N2]; subst. cbn.
  destruct (pystr_eqb_spec k' k) as [->|Hn].
  - destruct I as [I|I]; [congruence|]. exfalso. apply N1. change k with (fst (k, v)). apply in_map, I.
  - destruct I as [I|I]; [congruence|auto].
Qed.
Lemma report_get_none r k : report_get r k = None <-> ~ In k (map fst r).
Proof.
  induction r as [|[k' v'] r IH]; cbn; [tauto|]. destruct (pystr_eqb_spec k' k) as [->|Hn]; [split; [discriminate|tauto]|].
  rewrite IH. tauto.
Qed.
Lemma labelled_get c r k : proper_report r -> ~ In 64%Z k -> report_get (labelled c r) (score_label c k) = report_get r k.
Proof.
  intros [_ P] K. induction r as [|[k' v'] r IH]; [reflexivity|]. cbn [labelled map report_get fst snd].
  destruct (pystr_eqb_spec (score_label c k') (score_label c k)) as [E|E]; destruct (pystr_eqb_spec k' k) as [E'|E'].
  - reflexivity.
  - apply label_inj in E; [destruct E; congruence| |exact K]. apply P. now left.
  - congruence.
  - apply IH. intros x Hx. apply P. now right.
Qed.

(** ** Tables *)
Lemma filter_one (A : Type) (cs : list pystr) (l : list A) name c :
  NoDup cs -> In (name, c) (combine cs l) -> map snd (filter (fun kc => pystr_eqb (fst kc) name) (combine cs l)) = [c].
Proof.
  revert l. induction cs as [|k cs IH]; intros [|x l] N I; cbn in I; try tauto.
  inversion N as [|? ? N1 N2]; subst. cbn [combine filter fst].
  assert (forall l', ~ In name cs -> map snd (filter (fun kc : pystr * A => pystr_eqb (fst kc) name) (combine cs l')) = []) as Z.
  { clear. induction cs as [|k cs IH]; intros [|x l] H; try reflexivity. cbn. destruct (pystr_eqb_spec k name) as [->|]; [exfalso; apply H; now left|].
    apply IH. intros I; apply H; now right. }
  destruct (pystr_eqb_spec k name) as [->|Hn].
  - cbn [map snd]. rewrite Z by exact N1. destruct I as [[= ->]|I]; [reflexivity|].
    exfalso. apply N1. apply in_combine_l in I. exact I.
  - destruct I as [I|I]; [congruence|]. apply IH; assumption.
Qed.
Lemma cells_at_one f n cs name c :
  NoDup (f_columns f) -> NoDup (map fst (f_rows f)) -> In (n, cs) (f_rows f) -> In (name, c) (combine (f_columns f) cs) ->
  cells_at f n name = [c].
Proof.
  intros NC NR IR IC. unfold cells_at.
  assert (forall rows, ~ In n (map fst rows) -> flat_map (fun row : nat * list cell => if fst row =? n
    then map snd (filter (fun kc => pystr_eqb (fst kc) name) (combine (f_columns f) (snd row))) else []) rows = []) as Z.
  { induction rows as [|row rows IH]; intros H; [reflexivity|]. cbn. destruct (Nat.eqb_spec (fst row) n) as [E|E].
    - exfalso. apply H. left. exact E.
    - apply IH. intros I. apply H. now right. }
  induction (f_rows f) as [|row rows IH]; [destruct IR|]. cbn in NR. inversion NR as [|? ? N1 N2]; subst.
  cbn [flat_map]. destruct IR as [->|IR].
  - cbn [fst snd]. rewrite Nat.eqb_refl. cbn in N1. rewrite Z by exact N1. rewrite app_nil_r. apply filter_one; assumption.
  - destruct (Nat.eqb_spec (fst row) n) as [E|E]; [|apply IH; assumption].
    exfalso. apply N1. rewrite E. change n with (fst (n, cs)). apply in_map, IR.
Qed.

Lemma NoDup_app2 (A : Type) (a b : list A) : NoDup a -> NoDup b -> (forall x, In x a -> ~ In x b) -> NoDup (a ++ b).
Proof.
  induction a as [|x a IH]; intros Na Nb D; [exact Nb|]. inversion Na; subst. cbn. constructor.
  - rewrite in_app_iff. intros [I|I]; [tauto|]. apply (D x); [now left|exact I].
  - apply IH; auto. intros y Hy. apply D. now right.
Qed.

(** ** The frame of a study whose scores name every trial at most once *)
Definition score_columns (sc : list (nat * report)) : list pystr := f_columns (score_frame sc).
Lemma in_score_columns sc k : In k (score_columns sc) <-> exists e, In e sc /\ In k (map fst (snd e)).
Proof. unfold score_columns, score_frame. cbn [f_columns]. rewrite nodup_In, in_flat_map. reflexivity. Qed.
Definition score_cell (sc : list (nat * report)) (n : nat) (k : pystr) : cell :=
  match find (fun e => fst e =? n) sc with
  | Some e => match report_get (snd e) k with Some v => CNum v | None => CMissing end
  | None => CMissing
  end.
Definition left_cells (s : study) (t : trial) : list cell :=
  [value_cell t; CTime; CTime; CTime] ++ map (py_cell (t_params t)) (names_of t_params s)
  ++ map (py_cell (t_attrs t)) (names_of t_attrs s) ++ [CState (t_state t)].

Lemma filter_find (A : Type) (sc : list (nat * A)) n : NoDup (map fst sc) ->
  filter (fun e => fst e =? n) sc = match find (fun e => fst e =? n) sc with Some e => [e] | None => [] end.
Proof.
  induction sc as [|e sc IH]; intros N; [reflexivity|]. cbn in N. inversion N as [|? ? N1 N2]; subst. cbn [filter find].
  destruct (Nat.eqb_spec (fst e) n) as [E|E]; [|apply IH; exact N2].
  f_equal. rewrite IH by exact N2. destruct (find _ sc) as [e'|] eqn:F; [|reflexivity].
  apply find_some in F. destruct F as [F1 F2]. apply Nat.eqb_eq in F2. exfalso. apply N1. rewrite E, <- F2. apply in_map, F1.
Qed.
Lemma find_map (A B : Type) (f : A -> B) (sc : list (nat * A)) n :
  find (fun e => fst e =? n) (map (fun e => (fst e, f (snd e))) sc) =
  match find (fun e => fst e =? n) sc with Some e => Some (fst e, f (snd e)) | None => None end.
Proof. induction sc as [|e sc IH]; [reflexivity|]. cbn. destruct (fst e =? n); [reflexivity|exact IH]. Qed.

Lemma flat_map_single (A B C : Type) (f : A -> B) (g : B -> list C) (k : A -> C) l :
  (forall x, g (f x) = [k x]) -> flat_map g (map f l) = map k l.
Proof. intros H. induction l as [|x l IH]; [reflexivity|]. cbn [map flat_map]. rewrite H, IH. reflexivity. Qed.
Lemma join_rows s sc : NoDup (map fst sc) ->
  flat_map (fun row =>
       match filter (fun row' => fst row' =? fst row) (f_rows (score_frame sc)) with
       | [] => [(fst row, snd row ++ map (fun _ => CMissing) (score_columns sc))]
       | rs => map (fun row' => (fst row, snd row ++ snd row')) rs
       end) (f_rows (trials_dataframe s))
  = map (fun t => (t_number t, left_cells s t ++ map (score_cell sc (t_number t)) (score_columns sc))) s.
Proof.
  intros N. apply (flat_map_single _ _ _ (fun t => (t_number t, left_cells s t))). intros t. cbn [fst snd].
  set (g := fun r : report => map (fun k => match report_get r k with Some v => CNum v | None => CMissing end) (score_columns sc)).
  change (f_rows (score_frame sc)) with (map (fun e : nat * report => (fst e, g (snd e))) sc).
  rewrite filter_find by (rewrite map_map; exact N). rewrite find_map. unfold score_cell.
  destruct (find (fun e => fst e =? t_number t) sc) as [e|]; reflexivity.
Qed.

Definition frame_of (h : history) : frame :=
  mkFrame ((front_columns ++ names_of t_params (h_trials h) ++ names_of t_attrs (h_trials h) ++ [state_column]) ++ score_columns (h_scores h))
    (map (fun t => (t_number t, left_cells (h_trials h) t ++ map (score_cell (h_scores h) (t_number t)) (score_columns (h_scores h)))) (h_trials h)).
Lemma to_dataframe_cases h : NoDup (map fst (h_scores h)) ->
  study_to_dataframe h = Ok (frame_of h) \/ study_to_dataframe h = Fail ValueError.
Proof.
  intros N. unfold study_to_dataframe, join. cbn [f_columns f_rows]. destruct (existsb _ _); [now right|left].
  rewrite renamed_columns. fold (score_columns (h_scores h)). rewrite join_rows by exact N. reflexivity.
Qed.

Definition labels_only (sc : list (nat * report)) : Prop := forall k, In k (score_columns sc) -> In 64%Z k.
Lemma left_columns_clear s k : clear_names s ->
  In k (front_columns ++ names_of t_params s ++ names_of t_attrs s ++ [state_column]) -> ~ In 64%Z k.
Proof.
  intros [C _] I. rewrite !in_app_iff in I. destruct I as [I|[I|[I|I]]].
  - cbn in I. repeat destruct I as [<-|I]; try destruct I; cbn; intuition discriminate.
  - apply in_names in I. destruct I as [t [It Ik]]. apply (C t k It). now left.
  - apply in_names in I. destruct I as [t [It Ik]]. apply (C t k It). now right.
  - destruct I as [<-|[]]. cbn. intuition discriminate.
Qed.
Lemma to_dataframe_ok h : NoDup (map fst (h_scores h)) -> clear_names (h_trials h) -> labels_only (h_scores h) ->
  study_to_dataframe h = Ok (frame_of h).
Proof.
  intros N C L. destruct (to_dataframe_cases h N) as [E|E]; [exact E|]. exfalso.
  unfold study_to_dataframe, join in E. cbn [f_columns f_rows] in E. destruct (existsb _ _) eqn:X; [|discriminate]. clear E.
  apply existsb_exists in X. destruct X as [k [I X]]. apply existsb_exists in X. destruct X as [k' [I' X]].
  destruct (pystr_eqb_spec k k') as [<-|]; [|discriminate]. rewrite renamed_columns in I.
  apply (left_columns_clear _ _ C I). apply L, I'.
Qed.
Lemma columns_nodup h : clear_names (h_trials h) -> labels_only (h_scores h) -> NoDup (f_columns (frame_of h)).
Proof.
  intros C L. cbn [frame_of f_columns]. apply NoDup_app2.
  - pose proof C as [C1 C2]. unfold front_columns. cbn [app].
    assert (forall k, In k fixed_columns -> ~ In k (names_of t_params (h_trials h) ++ names_of t_attrs (h_trials h))) as F.
    { intros k K I. rewrite in_app_iff, !in_names in I. destruct I as [[t [It Ik]]|[t [It Ik]]]; apply (C1 t k It); auto. }
    assert (forall k, In k fixed_columns -> k <> state_column -> ~ In k (names_of t_params (h_trials h) ++ names_of t_attrs (h_trials h) ++ [state_column])) as F'.
    { intros k K S I. rewrite app_assoc, in_app_iff in I. destruct I as [I|[I|[]]]; [exact (F k K I)|congruence]. }
    assert (NoDup (names_of t_params (h_trials h) ++ names_of t_attrs (h_trials h) ++ [state_column])) as G.
    { rewrite app_assoc. apply NoDup_app2.
      - apply NoDup_app2; try apply NoDup_nodup. intros k Ik Ik'. apply in_names in Ik. apply in_names in Ik'.
        destruct Ik as [t [It Ik]]. destruct Ik' as [t' [It' Ik']]. exact (C2 t t' k It It' Ik Ik').
      - constructor; [intros []|constructor].
      - intros k Ik [<-|[]]. revert Ik. apply F. cbn. tauto. }
    constructor; [|constructor; [|constructor; [|constructor; [|exact G]]]].
    + intros [I|[I|[I|I]]]; try discriminate I. revert I. apply F'; [cbn; tauto|discriminate].
    + intros [I|[I|I]]; try discriminate I. revert I. apply F'; [cbn; tauto|discriminate].
    + intros [I|I]; try discriminate I. revert I. apply F'; [cbn; tauto|discriminate].
    + apply F'; [cbn; tauto|discriminate].
  - apply NoDup_nodup.
  - intros k I I'. apply (left_columns_clear _ _ C I). apply L, I'.
Qed.
Lemma left_length s t : length (left_cells s t) =
  length (front_columns ++ names_of t_params s ++ names_of t_attrs s ++ [state_column]).
Proof. unfold left_cells. rewrite !app_length, !map_length. reflexivity. Qed.
Lemma frame_rectangular h : rectangular (frame_of h).
Proof.
  intros row I. cbn [frame_of f_rows] in I. apply in_map_iff in I. destruct I as [t [<- _]]. cbn [snd frame_of f_columns].
  rewrite app_length, left_length, map_length, <- app_length. reflexivity.
Qed.
Lemma combine_app (A B : Type) (a a' : list A) (b b' : list B) : length a = length b ->
  combine (a ++ a') (b ++ b') = combine a b ++ combine a' b'.
Proof.
  revert b. induction a as [|x a IH]; intros [|y b] H; cbn in H; try discriminate; [reflexivity|]. cbn. rewrite IH by lia. reflexivity.
Qed.
Lemma in_combine_map (A B : Type) (f : A -> B) l k : In k l -> In (k, f k) (combine l (map f l)).
Proof. induction l as [|x l IH]; intros I; [destruct I|]. destruct I as [->|I]; [now left|right; auto]. Qed.

Section Frame.
Variable h : history.
Hypothesis HN : NoDup (map fst (h_scores h)).
Hypothesis HC : clear_names (h_trials h).
Hypothesis HL : labels_only (h_scores h).
Hypothesis HR : NoDup (map t_number (h_trials h)).
Let f := frame_of h.
Lemma rows_nodup : NoDup (map fst (f_rows f)).
Proof. unfold f, frame_of. cbn [f_rows]. rewrite map_map. exact HR. Qed.
Lemma row_of t : In t (h_trials h) -> In (t_number t,
  left_cells (h_trials h) t ++ map (score_cell (h_scores h) (t_number t)) (score_columns (h_scores h))) (f_rows f).
Proof. intros I. unfold f, frame_of. cbn [f_rows]. apply in_map_iff. exists t. auto. Qed.
Lemma cell_score t k : In t (h_trials h) -> In k (score_columns (h_scores h)) ->
  cells_at f (t_number t) k = [score_cell (h_scores h) (t_number t) k].
Proof.
  intros It Ik. eapply cells_at_one; [apply columns_nodup; assumption|apply rows_nodup|apply row_of, It|].
  unfold f, frame_of. cbn [f_columns]. rewrite combine_app by (symmetry; apply left_length).
  apply in_or_app. right. apply in_combine_map, Ik.
Qed.
Lemma cell_left t name c : In t (h_trials h) ->
  In (name, c) (combine (front_columns ++ names_of t_params (h_trials h) ++ names_of t_attrs (h_trials h) ++ [state_column]) (left_cells (h_trials h) t)) ->
  cells_at f (t_number t) name = [c].
Proof.
  intros It I. eapply cells_at_one; [apply columns_nodup; assumption|apply rows_nodup|apply row_of, It|].
  unfold f, frame_of. cbn [f_columns]. rewrite combine_app by (symmetry; apply left_length).
  apply in_or_app. left. exact I.
Qed.
Lemma cell_value t : In t (h_trials h) -> cells_at f (t_number t) (str "value") = [value_cell t].
Proof. intros It. apply cell_left; [exact It|]. unfold front_columns, left_cells. cbn [app combine]. now left. Qed.
Lemma cell_param t k : In t (h_trials h) -> In k (names_of t_params (h_trials h)) ->
  cells_at f (t_number t) k = [py_cell (t_params t) k].
Proof.
  intros It Ik. apply cell_left; [exact It|]. unfold left_cells. rewrite combine_app by reflexivity. apply in_or_app. right.
  rewrite combine_app by (rewrite map_length; reflexivity). apply in_or_app. left. apply in_combine_map, Ik.
Qed.
Lemma cell_attr t k : In t (h_trials h) -> In k (names_of t_attrs (h_trials h)) ->
  cells_at f (t_number t) k = [py_cell (t_attrs t) k].
Proof.
  intros It Ik. apply cell_left; [exact It|]. unfold left_cells. rewrite combine_app by reflexivity. apply in_or_app. right.
  rewrite combine_app by (rewrite map_length; reflexivity). apply in_or_app. right.
  rewrite combine_app by (rewrite map_length; reflexivity). apply in_or_app. left. apply in_combine_map, Ik.
Qed.
Lemma cell_state t : In t (h_trials h) -> cells_at f (t_number t) (str "state") = [CState (t_state t)].
Proof.
  intros It. apply cell_left; [exact It|]. unfold left_cells. rewrite combine_app by reflexivity. apply in_or_app. right.
  rewrite combine_app by (rewrite map_length; reflexivity). apply in_or_app. right.
  rewrite combine_app by (rewrite map_length; reflexivity). apply in_or_app. right. now left.
Qed.
End Frame.

(** ** Sessions *)
(** Numbers, verdicts and scores fit together. *)
Record fits (h : history) (log : list (option (N * report))) : Prop := mkFits
  { fit_numbers : map t_number (h_trials h) = seq 0 (length (h_trials h));
    fit_log : length log = length (h_trials h);
    fit_nodup : NoDup (map fst (h_scores h));
    fit_scores : forall n r, In (n, r) (h_scores h) <-> exists c r', nth_error log n = Some (Some (c, r')) /\ r = labelled c r';
    fit_proper : forall n c r, nth_error log n = Some (Some (c, r)) -> proper_report r }.

Lemma fits_new : fits (mkHist [] []) [].
Proof.
  constructor; cbn; try reflexivity; [constructor| |intros [|n]; discriminate].
  intros n r. split; [tauto|]. intros (c & r' & H & _). destruct n; discriminate.
Qed.
Lemma run_trial_fields c suggest n : let t := fst (run_trial (c_sample c) (c_train c) suggest (c_fixed c) n) in t_number t = n.
Proof. apply trial_fields. Qed.
Lemma nth_snoc (A : Type) (l : list A) x n y : nth_error (l ++ [x]) n = Some y <-> nth_error l n = Some y \/ (n = length l /\ x = y).
Proof.
  destruct (Nat.lt_ge_cases n (length l)) as [H|H].
  - rewrite nth_error_app1 by exact H. split; [tauto|]. intros [E|[E _]]; [exact E|lia].
  - rewrite nth_error_app2 by exact H. assert (nth_error l n = None) as -> by (apply nth_error_None; exact H).
    destruct (n - length l) as [|k] eqn:E; cbn.
    + split; [intros [= ->]; right; split; [lia|reflexivity]|]. intros [X|[_ ->]]; [discriminate|reflexivity].
    + split; [destruct k; discriminate|]. intros [X|[X _]]; [discriminate|lia].
Qed.
Lemma fits_record c suggest h log : proper_call c -> fits h log ->
  exists t, h_trials (fst (record_trial c suggest h)) = h_trials h ++ [t] /\
            fits (fst (record_trial c suggest h)) (log ++ [verdict c t]).
Proof.
  intros PC [F1 F2 F3 F4 F5]. unfold record_trial.
  pose proof (run_trial_fields c suggest (length (h_trials h))) as T. cbn zeta in T.
  destruct (run_trial _ _ _ _ _) as [t e]. cbn [fst] in *. exists t. split; [reflexivity|].
  assert (forall r, ~ In (length (h_trials h), r) (h_scores h)) as Fresh.
  { intros r I. apply F4 in I. destruct I as (x & r' & I & _). assert (length (h_trials h) < length log) by (apply nth_error_Some; congruence). lia. }
  unfold verdict. rewrite T. set (n := length (h_trials h)) in *.
  assert (map t_number (h_trials h ++ [t]) = seq 0 (length (h_trials h ++ [t]))) as G1.
  { rewrite map_app, F1, app_length. cbn [length]. rewrite Nat.add_1_r, seq_S. cbn. rewrite T. reflexivity. }
  destruct (c_run c n (t_used t)) as [r learnt|last|e'] eqn:E.
  - destruct (PC n (t_used t) r learnt E) as [Pr It]. cbn [add_score].
    destruct (report_get r (c_target c)) as [v|] eqn:G; [|exfalso; apply report_get_none in G; tauto].
    constructor; cbn [h_trials h_scores].
    + exact G1.
    + rewrite !app_length, F2. reflexivity.
    + rewrite map_app. apply NoDup_app2; [exact F3|constructor; [intros []|constructor]|].
      intros x Ix [<-|[]]. apply in_map_iff in Ix. destruct Ix as [[m r'] [Em Ix]]. cbn in Em. subst m. exact (Fresh r' Ix).
    + intros m r'. rewrite in_app_iff, F4. split.
      * intros [(x & r2 & H1 & H2)|[[= <- <-]|[]]].
        -- exists x, r2. split; [|exact H2]. apply nth_snoc. now left.
        -- exists (c_cutoff c), r. split; [|reflexivity]. apply nth_snoc. right. split; [congruence|reflexivity].
      * intros (x & r2 & H1 & H2). apply nth_snoc in H1. destruct H1 as [H1|[H1 [= <- <-]]].
        -- left. exists x, r2. auto.
        -- right. left. f_equal; congruence.
    + intros m x r2 H1. apply nth_snoc in H1. destruct H1 as [H1|[H1 [= <- <-]]]; [eauto|exact Pr].
  - constructor; cbn [h_trials h_scores add_score].
    + exact G1.
    + rewrite !app_length, F2. reflexivity.
    + exact F3.
    + intros m r. rewrite F4. split; intros (x & r2 & H1 & H2); exists x, r2; (split; [|exact H2]).
      * apply nth_snoc. now left.
      * apply nth_snoc in H1. destruct H1 as [H1|[_ H1]]; [exact H1|discriminate].
    + intros m x r2 H1. apply nth_snoc in H1. destruct H1 as [H1|[_ H1]]; [eauto|discriminate].
  - constructor; cbn [h_trials h_scores add_score].
    + exact G1.
    + rewrite !app_length, F2. reflexivity.
    + exact F3.
    + intros m r. rewrite F4. split; intros (x & r2 & H1 & H2); exists x, r2; (split; [|exact H2]).
      * apply nth_snoc. now left.
      * apply nth_snoc in H1. destruct H1 as [H1|[_ H1]]; [exact H1|discriminate].
    + intros m x r2 H1. apply nth_snoc in H1. destruct H1 as [H1|[_ H1]]; [eauto|discriminate].
Qed.
Lemma fits_records c suggest n : proper_call c -> forall h log, fits h log ->
  exists new, h_trials (fst (record_trials c suggest n h)) = h_trials h ++ new /\
              fits (fst (record_trials c suggest n h)) (log ++ map (verdict c) new).
Proof.
  intros PC. induction n as [|n IH]; intros h log F; cbn [record_trials].
  - exists []. cbn. rewrite !app_nil_r. auto.
  - destruct (fits_record c suggest h log PC F) as (t & E & F').
    destruct (record_trial c suggest h) as [h' [e|]]; cbn [fst] in *.
    + exists [t]. cbn. auto.
    + destruct (IH h' _ F') as (new & E2 & F2). exists (t :: new). rewrite E2, E, <- !app_assoc. split; [reflexivity|].
      rewrite <- app_assoc in F2. exact F2.
Qed.
Lemma tune_history digit_value c h :
  fst (tune_call digit_value c h) =
  if negb (c_data c) && negb (c_data_suggest c) then h
  else fst (record_trials c (match c_suggest c with Some f => f | None => default_suggest (c_range c) (c_fixed c) end) (c_n_trials c) h).
Proof.
  unfold tune_call. destruct (negb _ && negb _); [reflexivity|]. cbn zeta.
  destruct (record_trials _ _ _ _) as [h' [e|]]; reflexivity.
Qed.
Lemma skipn_app_length (A : Type) (a b : list A) : skipn (length a) (a ++ b) = b.
Proof. induction a; cbn; auto. Qed.
Lemma session_fits digit_value h log : session digit_value h log -> fits h log.
Proof.
  induction 1 as [|h log c S IH PC]; [apply fits_new|]. rewrite tune_history. destruct (negb _ && negb _).
  - rewrite <- (app_nil_r (h_trials h)) at 2. rewrite skipn_app_length. cbn. rewrite app_nil_r. exact IH.
  - destruct (fits_records c (match c_suggest c with Some f => f | None => default_suggest (c_range c) (c_fixed c) end) (c_n_trials c) PC h log IH) as (new & E & F).
    rewrite E, skipn_app_length. exact F.
Qed.
Lemma fits_labels h log : fits h log -> labels_only (h_scores h).
Proof.
  intros [_ _ _ F4 _] k I. apply in_score_columns in I. destruct I as [[n r] [I J]]. apply F4 in I. destruct I as (c & r' & _ & ->).
  cbn [snd] in J. unfold labelled in J. rewrite map_map in J. cbn [fst] in J. apply in_map_iff in J. destruct J as (kv & <- & _). apply label_at.
Qed.
Lemma fits_rows h log : fits h log -> NoDup (map t_number (h_trials h)).
Proof. intros F. rewrite (fit_numbers _ _ F). apply seq_NoDup. Qed.

(** ** What the theorems say *)
Lemma frame_returns digit_value h log : session digit_value h log -> clear_names (h_trials h) ->
  exists f, study_to_dataframe h = Ok f /\ map fst (f_rows f) = seq 0 (length (h_trials h)) /\ rectangular f /\ NoDup (f_columns f).
Proof.
  intros S C. apply session_fits in S. exists (frame_of h). split; [|split; [|split]].
  - apply to_dataframe_ok; [apply S|exact C|eapply fits_labels, S].
  - cbn [frame_of f_rows]. rewrite map_map. apply S.
  - apply frame_rectangular.
  - apply columns_nodup; [exact C|eapply fits_labels, S].
Qed.
Lemma trial_at h log n : fits h log -> n < length log -> exists t, In t (h_trials h) /\ t_number t = n /\ nth_error (h_trials h) n = Some t.
Proof.
  intros F L. rewrite (fit_log _ _ F) in L. destruct (nth_error (h_trials h) n) as [t|] eqn:E; [|apply nth_error_None in E; lia].
  exists t. split; [eapply nth_error_In, E|]. split; [|reflexivity].
  apply (map_nth_error t_number) in E. rewrite (fit_numbers _ _ F) in E.
  rewrite (nth_error_nth' _ 0) in E by (rewrite seq_length; exact L). rewrite seq_nth in E by exact L. injection E as <-. reflexivity.
Qed.
Lemma find_in (sc : list (nat * report)) n r : NoDup (map fst sc) -> In (n, r) sc -> find (fun e => fst e =? n) sc = Some (n, r).
Proof.
  induction sc as [|e sc IH]; intros N I; [destruct I|]. cbn in N. inversion N as [|? ? N1 N2]; subst. cbn.
  destruct (Nat.eqb_spec (fst e) n) as [E|E].
  - destruct I as [->|I]; [reflexivity|]. exfalso. apply N1. rewrite E. change n with (fst (n, r)). apply in_map, I.
  - destruct I as [->|I]; [cbn in E; congruence|auto].
Qed.
Lemma frame_scores digit_value h log f : session digit_value h log -> clear_names (h_trials h) -> study_to_dataframe h = Ok f ->
  forall n c r k v, nth_error log n = Some (Some (c, r)) -> In (k, v) r -> cells_at f n (score_label c k) = [CNum v].
Proof.
  intros S C E n c r k v L I. apply session_fits in S. pose proof (fits_labels _ _ S) as Lb.
  rewrite (to_dataframe_ok h (fit_nodup _ _ S) C Lb) in E. injection E as <-.
  assert (n < length log) as Ln by (apply nth_error_Some; congruence).
  destruct (trial_at h log n S Ln) as (t & It & <- & _).
  assert (In (t_number t, labelled c r) (h_scores h)) as Is by (apply (fit_scores _ _ S); eauto).
  destruct (fit_proper _ _ S _ _ _ L) as [Pn Pa].
  assert (In k (map fst r)) as Ik by (change k with (fst (k, v)); apply in_map, I).
  rewrite cell_score; [|exact C|exact Lb|eapply fits_rows, S|exact It|].
  - unfold score_cell. rewrite (find_in _ _ _ (fit_nodup _ _ S) Is). cbn [snd].
    rewrite labelled_get; [|split; assumption|apply Pa, Ik]. rewrite (report_get_some _ _ _ Pn I). reflexivity.
  - apply in_score_columns. exists (t_number t, labelled c r). split; [exact Is|]. cbn [snd]. unfold labelled. rewrite map_map. cbn [fst].
    apply in_map_iff. exists (k, v). auto.
Qed.
Lemma frame_missing digit_value h log f : session digit_value h log -> clear_names (h_trials h) -> study_to_dataframe h = Ok f ->
  forall n c k, n < length (h_trials h) -> ~ In 64%Z k -> In (score_label c k) (f_columns f) ->
  (forall r, nth_error log n = Some (Some (c, r)) -> ~ In k (map fst r)) -> cells_at f n (score_label c k) = [CMissing].
Proof.
  intros S C E n c k L K I H. apply session_fits in S. pose proof (fits_labels _ _ S) as Lb.
  rewrite (to_dataframe_ok h (fit_nodup _ _ S) C Lb) in E. injection E as <-.
  assert (n < length log) as Ln by (rewrite (fit_log _ _ S); exact L).
  destruct (trial_at h log n S Ln) as (t & It & <- & _).
  rewrite cell_score; [|exact C|exact Lb|eapply fits_rows, S|exact It|].
  - unfold score_cell. destruct (find _ _) as [[m r]|] eqn:F; [|reflexivity]. apply find_some in F. cbn [fst] in F. destruct F as [F1 F2].
    apply Nat.eqb_eq in F2. subst m. apply (fit_scores _ _ S) in F1. destruct F1 as (c' & r' & L' & ->). cbn [snd].
    destruct (report_get _ _) as [v|] eqn:G; [|reflexivity]. exfalso. apply report_get_in in G. unfold labelled in G.
    apply in_map_iff in G. destruct G as ([k' v'] & [= G1 G2] & I'). cbn [fst snd] in *.
    destruct (fit_proper _ _ S _ _ _ L') as [_ Pa].
    assert (In k' (map fst r')) as Ik by (change k' with (fst (k', v')); apply in_map, I').
    apply label_inj in G1; [|apply Pa, Ik|exact K]. destruct G1 as [-> ->]. exact (H r' L' Ik).
  - cbn [frame_of f_columns] in I. apply in_app_iff in I. destruct I as [I|I]; [|exact I].
    exfalso. apply (left_columns_clear _ _ C I). apply label_at.
Qed.
Lemma frame_trial digit_value h log f : session digit_value h log -> clear_names (h_trials h) -> study_to_dataframe h = Ok f ->
  forall n t, nth_error (h_trials h) n = Some t ->
  cells_at f n (str "value") = [match t_state t with Complete v => CNum v | Pruned (Some v) => CNum v | _ => CMissing end] /\
  cells_at f n (str "state") = [CState (t_state t)] /\
  (forall k v, dict_get (t_params t) k = Some v \/ dict_get (t_attrs t) k = Some v -> cells_at f n k = [CPy v]).
Proof.
  intros S C E n t T. apply session_fits in S. pose proof (fits_labels _ _ S) as Lb.
  rewrite (to_dataframe_ok h (fit_nodup _ _ S) C Lb) in E. injection E as <-.
  assert (n < length log) as Ln by (rewrite (fit_log _ _ S); apply nth_error_Some; congruence).
  destruct (trial_at h log n S Ln) as (t' & It & <- & T'). replace t' with t in * by congruence. clear T T'.
  pose proof (fits_rows _ _ S) as R. split; [|split].
  - rewrite cell_value; [|assumption..]. unfold value_cell, shown_value. destruct (t_state t) as [v|[v|]|]; reflexivity.
  - apply cell_state; assumption.
  - intros k v [G|G].
    + rewrite cell_param; [unfold py_cell; now rewrite G|assumption..|]. apply in_names. exists t. split; [exact It|].
      unfold keys. change k with (fst (k, v)). apply in_map. apply dict_get_in, G.
    + rewrite cell_attr; [unfold py_cell; now rewrite G|assumption..|]. apply in_names. exists t. split; [exact It|].
      unfold keys. change k with (fst (k, v)). apply in_map. apply dict_get_in, G.
Qed.

(** ** The search itself is that of Tune_Model *)
Lemma record_is_optimize c suggest n : forall h,
  h_trials (fst (record_trials c suggest n h)) = fst (optimize (c_sample c) (c_train c) suggest (c_fixed c) n (h_trials h)) /\
  snd (record_trials c suggest n h) = snd (optimize (c_sample c) (c_train c) suggest (c_fixed c) n (h_trials h)).
Proof.
  induction n as [|n IH]; intros h; cbn [record_trials optimize]; [auto|]. unfold record_trial.
  destruct (run_trial _ _ _ _ _) as [t [e|]]; cbn [fst snd h_trials]; [auto|].
  destruct (IH (mkHist (h_trials h ++ [t]) (add_score c (length (h_trials h)) (c_run c (length (h_trials h)) (t_used t)) (h_scores h)))) as [H1 H2].
  cbn [h_trials] in *. auto.
Qed.
Lemma same_search digit_value c h :
  let x := tune_call digit_value c h in
  let y := tune digit_value (c_sample c) (c_train c) (c_data c) (c_data_suggest c) (c_suggest c) (c_range c) (c_fixed c) (c_n_trials c) (h_trials h) in
  h_trials (fst x) = fst y /\
  match snd y with
  | Ok bp => (forall f, study_to_dataframe (fst x) = Ok f -> snd x = Ok (bp, f)) /\
             (forall e, study_to_dataframe (fst x) = Fail e -> snd x = Fail e)
  | Fail e => snd x = Fail e
  | UB => snd x = UB
  | Pending => snd x = Pending
  end.
Proof.
  cbn zeta. unfold tune_call, tune. destruct (negb _ && negb _); [split; reflexivity|]. cbn zeta.
  set (sg := match c_suggest c with Some f => f | None => default_suggest (c_range c) (c_fixed c) end).
  destruct (record_is_optimize c sg (c_n_trials c) h) as [H1 H2].
  destruct (record_trials c sg (c_n_trials c) h) as [h' [e|]]; destruct (optimize _ _ _ _ _ _) as [s [e'|]]; cbn [fst snd] in *; try congruence.
  - split; [exact H1|congruence].
  - split; [exact H1|]. rewrite H1. destruct (best_params digit_value s) as [bp|e| |]; cbn [obind]; try reflexivity.
    split; intros x E; rewrite E; reflexivity.
Qed.
Lemma new_trials digit_value c h : exists k,
  h_trials (fst (tune_call digit_value c h)) = h_trials h ++ map (trial_of (c_sample c) (c_train c)
    (match c_suggest c with Some f => f | None => default_suggest (c_range c) (c_fixed c) end) (c_fixed c)) (seq (length (h_trials h)) k).
Proof.
  destruct (same_search digit_value c h) as [-> _]. unfold tune. destruct (negb _ && negb _).
  - exists 0. cbn. rewrite app_nil_r. reflexivity.
  - set (sg := match c_suggest c with Some f => f | None => default_suggest (c_range c) (c_fixed c) end).
    destruct (optimize_trials (c_sample c) (c_train c) sg (c_fixed c) (c_n_trials c) (h_trials h)) as (k & _ & E & _). exists k.
    destruct (optimize _ _ _ _ _ _) as [s' [e|]]; exact E.
Qed.
Lemma frame_value digit_value c h log f : session digit_value h log -> proper_call c ->
  let h' := fst (tune_call digit_value c h) in
  clear_names (h_trials h') -> study_to_dataframe h' = Ok f ->
  forall n t r learnt, length (h_trials h) <= n -> nth_error (h_trials h') n = Some t -> c_run c n (t_used t) = Evaluated r learnt ->
  exists v, In (c_target c, v) r /\ cells_at f n (score_label (c_cutoff c) (c_target c)) = [CNum v] /\
    (v <> NaN -> cells_at f n (str "value") = [CNum (fneg v)]).
Proof.
  intros S PC h' C E n t r learnt L T Rn.
  pose proof (session_tune digit_value h log c S PC) as S'. fold h' in S'.
  destruct (PC _ _ _ _ Rn) as [Pr It]. destruct (report_get r (c_target c)) as [v|] eqn:G; [|apply report_get_none in G; tauto].
  exists v. apply report_get_in in G as G'. split; [exact G'|].
  pose proof (session_fits _ _ _ S) as F. pose proof (session_fits _ _ _ S') as F'.
  assert (exists new, h_trials h' = h_trials h ++ new /\ new = skipn (length (h_trials h)) (h_trials h')) as (new & En & En').
  { unfold h'. destruct (new_trials digit_value c h) as (k & K).
    eexists. split; [exact K|]. rewrite K, skipn_app_length. reflexivity. }
  assert (t_number t = n) as Tn.
  { assert (n < length (log ++ map (verdict c) (skipn (length (h_trials h)) (h_trials h')))) as Ln.
    { rewrite (fit_log _ _ F'). apply nth_error_Some. congruence. }
    destruct (trial_at h' _ n F' Ln) as (t' & _ & Q & Q'). congruence. }
  split.
  - eapply frame_scores; [exact S'|exact C|exact E| |exact G'].
    rewrite nth_error_app2 by (rewrite (fit_log _ _ F); exact L). rewrite (fit_log _ _ F).
    rewrite En in T. rewrite nth_error_app2 in T by exact L. rewrite <- En'.
    apply (map_nth_error (verdict c)) in T. rewrite T. unfold verdict. rewrite Tn, Rn. reflexivity.
  - intros V. destruct (frame_trial _ _ _ _ S' C E n t T) as [-> _].
    destruct (new_trials digit_value c h) as (k & K). fold h' in K. rewrite K in T. rewrite nth_error_app2 in T by exact L. apply nth_error_In in T. apply in_map_iff in T. destruct T as (m & Tm & _).
    pose proof (trial_fields (c_sample c) (c_train c) (match c_suggest c with Some f => f | None => default_suggest (c_range c) (c_fixed c) end) (c_fixed c) m) as TF.
    rewrite Tm in TF. cbn zeta in TF. destruct TF as (T1 & _ & _ & T4 & _). rewrite Tn in T1. subst m.
    assert (t_state t = Complete (fneg v)) as ->; [|reflexivity].
    apply T4. exists v, learnt. split; [|auto]. unfold c_train. rewrite Rn. cbn [as_result]. rewrite G. reflexivity.
Qed.

(** ** Several workers *)
Definition genuine (reports : nat -> report) (written : list nat) (sc : list (nat * report)) : Prop :=
  NoDup (map fst sc) /\ forall e, In e sc -> snd e = reports (fst e) /\ In (fst e) written.
Lemma read_of_in n l x : read_of n l = Some x -> In (n, x) l.
Proof. induction l as [|[m y] l IH]; cbn; [discriminate|]. destruct (Nat.eqb_spec m n) as [->|]; [intros [= ->]; now left|auto]. Qed.
Lemma accesses_genuine reports l : forall s written, NoDup (written ++ sets l) ->
  genuine reports written (s_scores s) -> (forall m x, In (m, x) (s_read s) -> genuine reports written x) ->
  genuine reports (written ++ sets l) (s_scores (fold_left (access_step reports) l s)).
Proof.
  induction l as [|a l IH]; intros s written N G R; cbn [fold_left].
  - cbn. rewrite app_nil_r. exact G.
  - destruct a as [n|n].
    + cbn [access_step]. change (sets (Get n :: l)) with (sets l). apply IH; [exact N|exact G|].
      intros m x [[= <- <-]|I]; [exact G|eauto].
    + change (sets (Set_ n :: l)) with (n :: sets l) in *. replace (written ++ n :: sets l) with ((written ++ [n]) ++ sets l) in * by (rewrite <- app_assoc; reflexivity).
      assert (~ In n written) as Nn.
      { intros I. rewrite <- app_assoc in N. apply NoDup_remove_2 in N. apply N. apply in_or_app. now left. }
      assert (forall x, genuine reports written x -> genuine reports (written ++ [n]) x) as W.
      { intros x [H1 H2]. split; [exact H1|]. intros e I. destruct (H2 e I). split; [assumption|]. apply in_or_app. now left. }
      apply IH; [exact N| |].
      * cbn [access_step]. destruct (read_of n (s_read s)) as [x|] eqn:Ex; [|apply W, G]. apply read_of_in in Ex. destruct (R _ _ Ex) as [H1 H2].
        cbn [s_scores]. split.
        -- rewrite map_app. apply NoDup_app2; [exact H1|constructor; [intros []|constructor]|].
           intros m I [<-|[]]. apply in_map_iff in I. destruct I as (e & E1 & I). apply H2 in I. destruct I as [_ I]. rewrite E1 in I. exact (Nn I).
        -- intros e I. apply in_app_iff in I. destruct I as [I|[<-|[]]].
           ++ destruct (H2 e I). split; [assumption|]. apply in_or_app. now left.
           ++ split; [reflexivity|]. apply in_or_app. right. now left.
      * cbn [access_step]. intros m x I. apply W. destruct (read_of n (s_read s)) as [y|]; cbn [s_read] in I; eauto.
Qed.
Lemma workers_genuine reports l : NoDup (sets l) ->
  NoDup (map fst (run_accesses reports l)) /\
  forall n r, In (n, r) (run_accesses reports l) -> r = reports n /\ In n (sets l).
Proof.
  intros N. destruct (accesses_genuine reports l (mkShared [] []) [] N) as [H1 H2].
  - split; [constructor|intros ? []].
  - intros ? ? [].
  - split; [exact H1|]. intros n r I. exact (H2 _ I).
Qed.
Lemma one_by_one_all reports ns : run_accesses reports (one_by_one ns) = map (fun n => (n, reports n)) ns.
Proof.
  unfold run_accesses. assert (forall s, s_scores (fold_left (access_step reports) (one_by_one ns) s) = s_scores s ++ map (fun n => (n, reports n)) ns) as H.
  { induction ns as [|n ns IH]; intros s; [cbn; rewrite app_nil_r; reflexivity|].
    change (one_by_one (n :: ns)) with (Get n :: Set_ n :: one_by_one ns). cbn [fold_left access_step read_of s_read s_scores].
    rewrite Nat.eqb_refl. rewrite IH. cbn [s_scores map]. rewrite <- app_assoc. reflexivity. }
  apply H.
Qed.
Lemma workers_frame s reports l f : NoDup (map t_number s) -> NoDup (sets l) -> clear_names s ->
  (forall n k, In k (map fst (reports n)) -> In 64%Z k) ->
  study_to_dataframe (mkHist s (run_accesses reports l)) = Ok f ->
  map fst (f_rows f) = map t_number s /\
  forall t k, In t s -> In 64%Z k -> In k (f_columns f) ->
    cells_at f (t_number t) k = [CMissing] \/
    exists v, report_get (reports (t_number t)) k = Some v /\ cells_at f (t_number t) k = [CNum v].
Proof.
  intros HR HS HC HK E. destruct (workers_genuine reports l HS) as [N G].
  set (h := mkHist s (run_accesses reports l)) in *.
  assert (labels_only (h_scores h)) as Lb.
  { intros k I. apply in_score_columns in I. destruct I as ([n r] & I & J). cbn [h h_scores] in I. apply G in I. destruct I as [-> _]. exact (HK n k J). }
  rewrite (to_dataframe_ok h N HC Lb) in E. injection E as <-. split.
  - cbn [frame_of f_rows]. rewrite map_map. reflexivity.
  - intros t k It K I. rewrite cell_score; [|exact HC|exact Lb|exact HR|exact It|].
    + unfold score_cell. destruct (find _ _) as [[m r]|] eqn:F; [|now left]. apply find_some in F. cbn [fst snd] in *. destruct F as [F1 F2].
      apply Nat.eqb_eq in F2. subst m. apply G in F1. destruct F1 as [-> _].
      destruct (report_get (reports (t_number t)) k) as [v|]; [right; eauto|now left].
    + cbn [frame_of f_columns] in I. apply in_app_iff in I. destruct I as [I|I]; [|exact I]. exfalso.
      exact (left_columns_clear _ _ HC I K).
Qed.
