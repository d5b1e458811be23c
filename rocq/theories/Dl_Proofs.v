From Verif Require Import Base PyStr_Model Dl_Model Dl_Spec.
From Coq Require Import String.
From Coq Require Import List.
Local Open Scope Z_scope.

Lemma pystr_eqb_eq a b : pystr_eqb a b = true <-> a = b.
Proof. unfold pystr_eqb. destruct (list_eq_dec Z.eq_dec a b); split; congruence. Qed.
Lemma path_eqb_eq p q : path_eqb p q = true <-> p = q.
Proof.
  unfold path_eqb. rewrite andb_true_iff, !pystr_eqb_eq.
  destruct p, q; simpl; split; [intros []; congruence | intros H; inversion H; auto].
Qed.
Lemma path_dec (p q : path) : {p = q} + {p <> q}.
Proof.
  destruct (path_eqb p q) eqn:E; [left; now apply path_eqb_eq | right].
  intros H. apply path_eqb_eq in H. congruence.
Qed.
Lemma fs_set_same s p c : fs_set s p c p = c.
Proof. unfold fs_set. now rewrite (proj2 (path_eqb_eq p p) eq_refl). Qed.
Lemma fs_set_other s p c q : q <> p -> fs_set s p c q = s q.
Proof.
  intros H. unfold fs_set. destruct (path_eqb q p) eqn:E; auto.
  apply path_eqb_eq in E; contradiction.
Qed.

Lemma exec_all_app a b s : exec_all (a ++ b) s = exec_all b (exec_all a s).
Proof. apply fold_left_app. Qed.

(** The operations on one file leave the others alone. *)
Definition only (t : path) (o : op) : Prop :=
  match o with Create p | Write p _ | Unlink p => p = t | Rename _ _ => False end.
Lemma exec_only t o s q : only t o -> q <> t -> exec s o q = s q.
Proof.
  destruct o; simpl; try tauto; intros -> H.
  - now apply fs_set_other.
  - destruct (s t); [now apply fs_set_other | auto].
  - now apply fs_set_other.
Qed.
Lemma exec_all_only t ops s q : Forall (only t) ops -> q <> t -> exec_all ops s q = s q.
Proof.
  revert s. induction ops as [|o ops IH]; intros s F H; [reflexivity|].
  inversion F; subst. cbn. unfold exec_all in IH. rewrite IH by auto. now apply (exec_only t).
Qed.
Lemma only_writes t b : Forall (only t) (write_all t b).
Proof. unfold write_all. induction b; simpl; constructor; simpl; auto. Qed.
Lemma Forall_firstn {A} (P : A -> Prop) n l : Forall P l -> Forall P (firstn n l).
Proof.
  revert n; induction l; destruct n; simpl; intros F; auto. inversion F; constructor; auto.
Qed.

Lemma exec_writes t b s c : s t = Some c -> exec_all (write_all t b) s t = Some (c ++ b).
Proof.
  revert s c. induction b as [|x b IH]; intros s c H; cbn.
  - now rewrite app_nil_r.
  - rewrite H. change (exec_all (write_all t b) (fs_set s t (Some (c ++ [x]))) t = Some (c ++ x :: b)).
    rewrite (IH _ (c ++ [x])) by apply fs_set_same. now rewrite <- app_assoc.
Qed.
Lemma exec_create t b s : exec_all (Create t :: write_all t b) s t = Some b.
Proof.
  change (exec_all (write_all t b) (fs_set s t (Some [])) t = Some b).
  now rewrite (exec_writes t b _ []) by apply fs_set_same.
Qed.
Lemma firstn_writes t n b : firstn n (write_all t b) = write_all t (firstn n b).
Proof. unfold write_all. revert n; induction b; destruct n; simpl; congruence. Qed.

Lemma temporary_hidden p x : hd_error (snd (temporary p x)) = Some 46.
Proof. reflexivity. Qed.
Lemma visible_not_temporary q p x : visible q -> q <> temporary p x.
Proof. intros V ->. apply V. apply temporary_hidden. Qed.

(** After any number of operations of a download that does not end in a lost
    connection. *)
Section Download.
Variable full : path -> bytes.

Definition good_response (p : path) (r : response) : Prop :=
  match r with Body b Complete => b = full p | Body _ Dropped => False | _ => True end.

(** [s'] may be found after [s] where [paths] are being fetched. *)
Definition step_ok (paths : list path) (s s' : fs) : Prop :=
  forall q, visible q -> s' q = s q \/ (In q paths /\ s' q = Some (full q)).

Lemma step_ok_refl paths s : step_ok paths s s.
Proof. now left. Qed.
Lemma step_ok_trans paths s1 s2 s3 : step_ok paths s1 s2 -> step_ok paths s2 s3 -> step_ok paths s1 s3.
Proof.
  intros A B q V. destruct (B q V) as [E|E]; [|now right].
  destruct (A q V) as [E'|[I E']]; [left; congruence | right; split; congruence].
Qed.
Lemma step_ok_incl p1 p2 s s' : incl p1 p2 -> step_ok p1 s s' -> step_ok p2 s s'.
Proof. intros I A q V. destruct (A q V) as [|[]]; auto. Qed.
Lemma step_ok_only paths t ops s : ~ visible t -> Forall (only t) ops -> step_ok paths s (exec_all ops s).
Proof.
  intros H F q V. left. apply (exec_all_only t); auto. intros ->; auto.
Qed.
Lemma temporary_invisible p x : ~ visible (temporary p x).
Proof. intros V. now apply V. Qed.

Lemma rename_ok p x s : s (temporary p x) = Some (full p) ->
  step_ok [p] s (exec s (Rename (temporary p x) p)).
Proof.
  intros H q V. cbn [exec]. rewrite H. destruct (path_dec q p) as [->|N].
  - right. split; [now left | apply fs_set_same].
  - left. rewrite fs_set_other by auto. rewrite fs_set_other by now apply visible_not_temporary. auto.
Qed.
Lemma unlink_ok paths p x s : step_ok paths s (exec s (Unlink (temporary p x))).
Proof. intros q V. left. cbn. apply fs_set_other. now apply visible_not_temporary. Qed.

Lemma download_step p x r s k : good_response p r ->
  step_ok [p] s (exec_all (firstn k (fst (mind_download p x r))) s).
Proof.
  intros G. set (t := temporary p x).
  assert (W : forall b, Forall (only t) (Create t :: write_all t b))
    by (intros b; constructor; [reflexivity | apply only_writes]).
  destruct r as [code| |b e]; cbn [mind_download fst].
  - rewrite firstn_nil. apply step_ok_refl.
  - rewrite firstn_nil. apply step_ok_refl.
  - destruct e; cbn in G; [|contradiction|].
    + subst b. cbn [fst]. fold t.
      change (Create t :: write_all t (full p) ++ [Rename t p; Unlink t])
        with ((Create t :: write_all t (full p)) ++ [Rename t p; Unlink t]).
      rewrite firstn_app, exec_all_app.
      destruct (Nat.le_gt_cases k (length (Create t :: write_all t (full p)))) as [L|L].
      * replace (k - length (Create t :: write_all t (full p)))%nat with 0%nat by lia.
        cbn [firstn exec_all fold_left].
        apply (step_ok_only _ t); [apply temporary_invisible | now apply Forall_firstn].
      * rewrite (firstn_all2 (Create t :: write_all t (full p))) by lia.
        set (s1 := exec_all (Create t :: write_all t (full p)) s).
        assert (H1 : s1 t = Some (full p)) by apply exec_create.
        assert (S1 : step_ok [p] s s1) by (apply (step_ok_only _ t); [apply temporary_invisible | apply W]).
        set (j := (k - length (Create t :: write_all t (full p)))%nat).
        destruct j as [|[|j]].
        -- exact S1.
        -- cbn [firstn exec_all fold_left]. eapply step_ok_trans; [exact S1 | apply (rename_ok p x); exact H1].
        -- cbn [firstn exec_all fold_left]. rewrite firstn_nil. cbn [fold_left].
           eapply step_ok_trans; [|apply unlink_ok].
           eapply step_ok_trans; [exact S1 | apply (rename_ok p x); exact H1].
    + apply (step_ok_only _ t); [apply temporary_invisible|].
      apply Forall_firstn. cbn [fst]. fold t.
      change (Create t :: write_all t b ++ [Unlink t]) with ((Create t :: write_all t b) ++ [Unlink t]).
      apply Forall_app. split; [apply W | repeat constructor].
Qed.

Lemma download_whole p x r s : good_response p r ->
  step_ok [p] s (exec_all (fst (mind_download p x r)) s).
Proof.
  intros G. rewrite <- (firstn_all (fst (mind_download p x r))). now apply download_step.
Qed.

Lemma fst_then a b : fst (then_call a b) = fst a \/ fst (then_call a b) = fst a ++ fst b.
Proof. unfold then_call. destruct (snd a); auto. Qed.

Lemma fetch_step sn missing : forall s k,
  (forall p, In p missing -> good_response p (sn_net sn p)) ->
  step_ok missing s (exec_all (firstn k (fst (fetch_all sn missing))) s).
Proof.
  induction missing as [|p l IH]; intros s k G.
  - cbn. rewrite firstn_nil. apply step_ok_refl.
  - cbn [fetch_all].
    assert (D : forall k s, step_ok (p :: l) s
              (exec_all (firstn k (fst (mind_download p (sn_suffix sn p) (sn_net sn p)))) s)).
    { intros k' s'. apply (step_ok_incl [p]); [intros z [<-|[]]; now left|].
      apply download_step. apply G. now left. }
    destruct (fst_then (mind_download p (sn_suffix sn p) (sn_net sn p)) (fetch_all sn l)) as [-> | ->].
    + apply D.
    + rewrite firstn_app, exec_all_app.
      eapply step_ok_trans; [apply D|].
      apply (step_ok_incl l); [intros z; now right|].
      apply IH. intros z I. apply G. now right.
Qed.

Lemma prepare_step s paths sn k : honest full paths sn ->
  step_ok (filter (absent s) paths) s (exec_all (firstn k (fst (mind_prepare s paths sn))) s).
Proof.
  intros H. unfold mind_prepare.
  destruct (negb (valid_size (sn_size sn))); [rewrite firstn_nil; apply step_ok_refl|].
  destruct (negb (valid_source (sn_source sn))); [rewrite firstn_nil; apply step_ok_refl|].
  assert (G : forall p, In p (filter (absent s) paths) -> good_response p (sn_net sn p)).
  { intros p I. apply filter_In in I as [I _]. apply (H p I). }
  destruct (filter (absent s) paths) as [|p l] eqn:E; [rewrite firstn_nil; apply step_ok_refl|].
  destruct (sn_force sn || sn_yes sn); [|rewrite firstn_nil; apply step_ok_refl].
  rewrite <- E in *. apply fetch_step. exact G.
Qed.

Variable zip_ok : bytes -> bool.

Lemma start_step paths s sn : honest full paths sn ->
  step_ok (filter (absent s) paths) s (fst (mind_start zip_ok paths s sn)).
Proof.
  intros H. unfold mind_start, finish_call.
  assert (W : step_ok (filter (absent s) paths) s (exec_all (fst (mind_prepare s paths sn)) s)).
  { rewrite <- (firstn_all (fst (mind_prepare s paths sn))). now apply prepare_step. }
  destruct (sn_kill sn) as [k|]; [|exact W].
  destruct (k <? _)%nat; [now apply prepare_step | exact W].
Qed.

Lemma intact_step paths s s' : Forall visible paths ->
  step_ok paths s s' -> Forall (intact full s) paths -> Forall (intact full s') paths.
Proof.
  rewrite !Forall_forall. intros V S I p Hp.
  destruct (S p (V p Hp)) as [E|[_ E]]; [unfold intact; rewrite E; now apply I | now right].
Qed.

Lemma open_all_ok s : forall paths r,
  open_all zip_ok s paths = Ok r -> Forall (intact full s) paths -> r = map full paths.
Proof.
  induction paths as [|p ps IH]; intros r H F; cbn in *; [congruence|].
  inversion F as [|? ? I F']; subst. unfold open_zip in H.
  destruct I as [E|E]; rewrite E in H; cbn in H; [discriminate|].
  destruct (zip_ok (full p)); cbn in H; [|discriminate].
  destruct (open_all zip_ok s ps) eqn:O; cbn in H; try discriminate.
  inversion H; subst. f_equal. now apply IH.
Qed.

Lemma start_result paths s sn r : Forall visible paths -> honest full paths sn ->
  Forall (intact full s) paths ->
  snd (mind_start zip_ok paths s sn) = Ok r -> r = map full paths.
Proof.
  intros V H I E.
  assert (I' : Forall (intact full (fst (mind_start zip_ok paths s sn))) paths).
  { eapply intact_step; [exact V| |exact I].
    eapply step_ok_incl; [|now apply start_step]. intros z Hz. now apply filter_In in Hz. }
  revert E I'. unfold mind_start, finish_call.
  assert (W : forall s', snd (s', obind (snd (mind_prepare s paths sn)) (fun _ => open_all zip_ok s' paths)) = Ok r ->
              Forall (intact full s') paths -> r = map full paths).
  { intros s' E F. cbn [snd] in E. destruct (snd (mind_prepare s paths sn)); try discriminate.
    cbn [obind] in E. now apply (open_all_ok s'). }
  destruct (sn_kill sn) as [k|]; [|apply W].
  destruct (k <? _)%nat; [discriminate | apply W].
Qed.

Lemma history_ok paths : Forall visible paths -> forall l s,
  Forall (honest full paths) l -> Forall (intact full s) paths ->
  let '(s', rs) := mind_history zip_ok paths s l in
  Forall (intact full s') paths /\
  (forall q, visible q -> ~ In q paths -> s' q = s q) /\
  (forall q, visible q -> s q <> None -> s' q = s q) /\
  (forall r, In (Ok r) rs -> r = map full paths).
Proof.
  intros V. induction l as [|sn l IH]; intros s H I; cbn [mind_history].
  - split; [exact I|]. split; [auto|]. split; [auto|]. intros r [].
  - inversion H as [|? ? H1 H2]; subst.
    pose proof (start_step paths s sn H1) as S.
    pose proof (fun r => start_result paths s sn r V H1 I) as R.
    destruct (mind_start zip_ok paths s sn) as [s1 r1]. cbn [fst snd] in S, R.
    assert (I1 : Forall (intact full s1) paths).
    { eapply intact_step; [exact V| |exact I]. eapply step_ok_incl; [|exact S].
      intros z Hz. now apply filter_In in Hz. }
    specialize (IH s1 H2 I1). destruct (mind_history zip_ok paths s1 l) as [s2 rs].
    destruct IH as (J1 & J2 & J3 & J4).
    assert (K : forall q, visible q -> s q <> None -> s1 q = s q).
    { intros q Vq N. destruct (S q Vq) as [|[F _]]; auto.
      apply filter_In in F as [_ F]. unfold absent in F. destruct (s q); congruence. }
    split; [exact J1|]. split; [|split].
    + intros q Vq N. rewrite J2 by auto. destruct (S q Vq) as [|[F _]]; auto.
      apply filter_In in F as [F _]. contradiction.
    + intros q Vq N. rewrite J3; auto. rewrite K; auto.
    + intros r [E|E]; [now apply R | now apply J4].
Qed.

(** ** Completed sessions *)
Lemma fetch_complete sn missing : Forall visible missing -> forall s,
  (forall p, In p missing -> sn_net sn p = Body (full p) Complete) ->
  snd (fetch_all sn missing) = Ok tt /\
  (forall p, In p missing -> exec_all (fst (fetch_all sn missing)) s p = Some (full p)).
Proof.
  induction missing as [|p l IH]; intros V s G; [now split|].
  inversion V as [|? ? V1 V2]; subst.
  assert (Gl : forall q, In q l -> sn_net sn q = Body (full q) Complete) by (intros q I; apply G; now right).
  cbn [fetch_all]. unfold then_call.
  rewrite (G p (or_introl eq_refl)). cbn [snd mind_download fst].
  set (t := temporary p (sn_suffix sn p)).
  set (ops1 := Create t :: write_all t (full p) ++ [Rename t p; Unlink t]).
  split; [now apply IH|].
  intros q I. rewrite exec_all_app.
  destruct (IH V2 (exec_all ops1 s) Gl) as [_ IH2].
  destruct (in_dec path_dec q l) as [Iq|Nq]; [now apply IH2|].
  destruct I as [<-|I]; [|contradiction].
  assert (S : step_ok l (exec_all ops1 s) (exec_all (fst (fetch_all sn l)) (exec_all ops1 s))).
  { rewrite <- (firstn_all (fst (fetch_all sn l))). apply fetch_step.
    intros q Iq. rewrite (Gl q Iq). reflexivity. }
  destruct (S p V1) as [->|[]]; [|contradiction].
  subst ops1. change (Create t :: write_all t (full p) ++ [Rename t p; Unlink t])
        with ((Create t :: write_all t (full p)) ++ [Rename t p; Unlink t]).
  rewrite exec_all_app. set (s1 := exec_all (Create t :: write_all t (full p)) s).
  assert (H1 : s1 t = Some (full p)) by apply exec_create.
  cbn [exec_all fold_left exec]. rewrite H1.
  rewrite fs_set_other by now apply visible_not_temporary. apply fs_set_same.
Qed.

Lemma open_all_full s : forall paths,
  (forall p, In p paths -> s p = Some (full p) /\ zip_ok (full p) = true) ->
  open_all zip_ok s paths = Ok (map full paths).
Proof.
  induction paths as [|p ps IH]; intros H; [reflexivity|].
  cbn. unfold open_zip. destruct (H p (or_introl eq_refl)) as [-> ->]. cbn.
  rewrite IH by (intros q I; apply H; now right). reflexivity.
Qed.

Lemma start_complete paths s sn : Forall visible paths ->
  Forall (intact full s) paths ->
  valid_size (sn_size sn) = true -> valid_source (sn_source sn) = true ->
  sn_force sn || sn_yes sn = true -> sn_kill sn = None ->
  (forall p, In p paths -> sn_net sn p = Body (full p) Complete) ->
  (forall p, In p paths -> zip_ok (full p) = true) ->
  snd (mind_start zip_ok paths s sn) = Ok (map full paths).
Proof.
  intros V I Sz So Y K G Z. unfold mind_start, finish_call. rewrite K.
  unfold mind_prepare. rewrite Sz, So. cbn [negb].
  assert (Full : forall s', (forall q, visible q -> s q <> None -> s' q = s q) ->
     (forall p, In p (filter (absent s) paths) -> s' p = Some (full p)) ->
     open_all zip_ok s' paths = Ok (map full paths)).
  { intros s' A B. apply open_all_full. intros p Ip. split; [|now apply Z].
    rewrite Forall_forall in I, V. destruct (I p Ip) as [E|E].
    - apply B. apply filter_In. split; [exact Ip|]. unfold absent. now rewrite E.
    - rewrite A; [exact E | now apply V | congruence]. }
  destruct (filter (absent s) paths) as [|p l] eqn:E.
  - cbn. apply Full; [auto | intros p []].
  - rewrite Y. rewrite <- E in *.
    assert (Vm : Forall visible (filter (absent s) paths)).
    { rewrite Forall_forall in *. intros q Iq. apply filter_In in Iq. now apply V. }
    assert (Gm : forall q, In q (filter (absent s) paths) -> sn_net sn q = Body (full q) Complete).
    { intros q Iq. apply filter_In in Iq. now apply G. }
    destruct (fetch_complete sn _ Vm s Gm) as [R C]. cbn [snd]. rewrite R. cbn [obind].
    apply Full; [|exact C].
    intros q Vq N.
    assert (S : step_ok (filter (absent s) paths) s (exec_all (fst (fetch_all sn (filter (absent s) paths))) s)).
    { rewrite <- (firstn_all (fst (fetch_all sn _))). apply fetch_step. intros z Iz. now rewrite (Gm z Iz). }
    destruct (S q Vq) as [|[F _]]; auto.
    apply filter_In in F as [_ F]. unfold absent in F. destruct (s q); congruence.
Qed.
End Download.

(** ** No litter unless killed *)
Definition no_new (s s' : fs) : Prop := forall q, ~ visible q -> s' q = s q \/ s' q = None.
Lemma no_new_trans s1 s2 s3 : no_new s1 s2 -> no_new s2 s3 -> no_new s1 s3.
Proof. intros A B q V. destruct (B q V) as [E|E]; [rewrite E; now apply A | now right]. Qed.

Lemma download_no_new p x r s : visible p -> no_new s (exec_all (fst (mind_download p x r)) s).
Proof.
  intros V q H. set (t := temporary p x).
  assert (W : forall b, Forall (only t) (Create t :: write_all t b))
    by (intros b; constructor; [reflexivity | apply only_writes]).
  assert (N : q <> p) by (intros ->; contradiction).
  assert (R : forall b, exec_all ((Create t :: write_all t b) ++ [Rename t p; Unlink t]) s q = s q \/
                        exec_all ((Create t :: write_all t b) ++ [Rename t p; Unlink t]) s q = None).
  { intros b. rewrite exec_all_app. pose proof (exec_create t b s) as C.
    cbn [exec_all fold_left exec] in *. unfold exec_all in C. rewrite C.
    destruct (path_dec q t) as [->|Nt]; [right; apply fs_set_same | left].
    rewrite !fs_set_other by auto. apply (exec_all_only t (Create t :: write_all t b)); auto. }
  destruct r as [code| |b e]; cbn [mind_download fst]; [now left | now left |].
  destruct e; cbn [fst]; [apply R | apply R |].
  fold t. change (Create t :: write_all t b ++ [Unlink t]) with ((Create t :: write_all t b) ++ [Unlink t]).
  rewrite exec_all_app. cbn [exec_all fold_left exec].
  destruct (path_dec q t) as [->|Nt]; [right; apply fs_set_same | left].
  rewrite fs_set_other by auto. apply (exec_all_only t (Create t :: write_all t b)); auto.
Qed.
Lemma fetch_no_new sn l : Forall visible l -> forall s, no_new s (exec_all (fst (fetch_all sn l)) s).
Proof.
  induction l as [|p l IH]; intros V s; [now left|]. inversion V; subst. cbn [fetch_all].
  destruct (fst_then (mind_download p (sn_suffix sn p) (sn_net sn p)) (fetch_all sn l)) as [-> | ->].
  - now apply download_no_new.
  - rewrite exec_all_app. eapply no_new_trans; [|now apply IH]. now apply download_no_new.
Qed.
Lemma start_no_new zip_ok paths s sn : Forall visible paths -> sn_kill sn = None ->
  no_new s (fst (mind_start zip_ok paths s sn)).
Proof.
  intros V K. unfold mind_start, finish_call. rewrite K. cbn [fst].
  unfold mind_prepare. destruct (negb _); [now left|]. destruct (negb _); [now left|].
  destruct (filter (absent s) paths) as [|p l] eqn:E; [now left|].
  destruct (_ || _); [|now left]. rewrite <- E. apply fetch_no_new.
  rewrite Forall_forall in *. intros q Iq. apply filter_In in Iq. now apply V.
Qed.

(** ** Refusals leave the disk alone *)
Definition gated (code : Z) : bool := (code =? 401) || (code =? 403) || (code =? 409).
Lemma start_refusals zip_ok paths s sn :
  (valid_size (sn_size sn) = false \/ valid_source (sn_source sn) = false ->
     mind_start zip_ok paths s sn = (s, Fail ValueError)) /\
  (valid_size (sn_size sn) = true -> valid_source (sn_source sn) = true ->
     (exists p, In p paths /\ s p = None) -> sn_force sn = false -> sn_yes sn = false ->
     mind_start zip_ok paths s sn = (s, Fail RuntimeError)) /\
  (valid_size (sn_size sn) = true -> valid_source (sn_source sn) = true ->
     (exists p, In p paths /\ s p = None) -> sn_force sn = true ->
     forall code, (forall p, In p paths -> sn_net sn p = HttpError code) ->
     mind_start zip_ok paths s sn = (s, Fail (if gated code then RuntimeError else NetworkError))).
Proof.
  assert (F : forall e, finish_call zip_ok ([], Fail e) (sn_kill sn) paths s = (s, Fail e)).
  { intros e. unfold finish_call. cbn. destruct (sn_kill sn) as [k|]; [|reflexivity].
    destruct (k <? 0)%nat eqn:E; [apply Nat.ltb_lt in E; lia | reflexivity]. }
  assert (M : (exists p, In p paths /\ s p = None) -> exists p l, filter (absent s) paths = p :: l /\ In p paths).
  { intros (p & I & E). destruct (filter (absent s) paths) as [|q l] eqn:Q.
    - exfalso. assert (J : In p (filter (absent s) paths)) by (apply filter_In; split; auto; unfold absent; now rewrite E).
      rewrite Q in J. destruct J.
    - exists q, l. split; auto. assert (J : In q (filter (absent s) paths)) by (rewrite Q; now left).
      apply filter_In in J. tauto. }
  unfold mind_start, mind_prepare. split; [|split].
  - intros [-> | E]; cbn [negb]; [apply F|]. destruct (valid_size _); cbn [negb]; [|apply F].
    rewrite E. apply F.
  - intros -> -> E -> ->. cbn [negb orb]. destruct (M E) as (p & l & -> & _). apply F.
  - intros -> -> E -> code H. cbn [negb orb]. destruct (M E) as (p & l & -> & I).
    cbn [fetch_all]. rewrite (H p I). cbn. apply F.
Qed.

(** ** Writing in place *)
Section InPlace.
Variable zip_ok : bytes -> bool.

Lemma in_place_prefix p b e s k : s p = None ->
  exec_all (firstn (S k) (fst (single_zip_save p (Body b e)))) s p = Some (firstn k b).
Proof.
  intros N. assert (E : fst (single_zip_save p (Body b e)) = Create p :: write_all p b) by (destruct e; reflexivity).
  rewrite E. cbn [firstn]. rewrite firstn_writes. apply exec_create.
Qed.
Lemma in_place_crash p b s k yes : s p = None -> (k < length b)%nat ->
  let '(s', r) := base_start zip_ok (single_zip_save p (Body b Complete)) p true yes (Some (S k)) s in
  r = Pending /\ s' p = Some (firstn k b) /\
  forall r' force yes',
    base_start zip_ok (single_zip_save p r') p force yes' None s' =
    (s', if zip_ok (firstn k b) then Ok [firstn k b] else Fail BadZipFile).
Proof.
  intros N L. unfold base_start. unfold absent at 1. rewrite N. cbn [orb].
  unfold finish_call at 1.
  replace (S k <? length (fst (single_zip_save p (Body b Complete))))%nat with true
    by (symmetry; apply Nat.ltb_lt; cbn; unfold write_all; rewrite map_length; lia).
  pose proof (in_place_prefix p b Complete s k N) as P.
  set (s' := exec_all _ s) in *. split; [reflexivity|]. split; [exact P|].
  intros r' force yes'. unfold absent. rewrite P. unfold finish_call. cbn [fst snd exec_all fold_left obind open_all].
  unfold open_zip. rewrite P. destruct (zip_ok (firstn k b)); reflexivity.
Qed.
Lemma in_place_broken p b e s yes : s p = None -> e <> Complete ->
  let '(s', r) := base_start zip_ok (single_zip_save p (Body b e)) p true yes None s in
  r = Fail NetworkError /\ s' p = Some b.
Proof.
  intros N H. unfold base_start, absent. rewrite N. cbn [orb]. unfold finish_call.
  split.
  - destruct e; [contradiction | reflexivity | reflexivity].
  - assert (E : fst (single_zip_save p (Body b e)) = Create p :: write_all p b) by (destruct e; reflexivity).
    cbv zeta. rewrite E. apply exec_create.
Qed.
Lemma in_place_complete p b s yes : s p = None -> zip_ok b = true ->
  let '(s', r) := base_start zip_ok (single_zip_save p (Body b Complete)) p true yes None s in
  r = Ok [b] /\ s' p = Some b /\ (forall q, q <> p -> s' q = s q).
Proof.
  intros N Z. unfold base_start, absent. rewrite N. cbn [orb]. unfold finish_call.
  cbn [fst snd single_zip_save].
  assert (P : exec_all (Create p :: write_all p b) s p = Some b) by apply exec_create.
  cbn [obind open_all]. unfold open_zip. rewrite P, Z. split; [reflexivity|]. split; [reflexivity|].
  intros q H. apply (exec_all_only p); auto. constructor; [reflexivity | apply only_writes].
Qed.
Lemma in_place_existing p c save s force yes kill : s p = Some c ->
  base_start zip_ok save p force yes kill s = (s, if zip_ok c then Ok [c] else Fail BadZipFile).
Proof.
  intros E. unfold base_start, absent. rewrite E. unfold finish_call. cbn.
  unfold open_zip. rewrite E.
  destruct kill as [k|]; [destruct (k <? 0)%nat eqn:L; [apply Nat.ltb_lt in L; lia|] |]; destruct (zip_ok c); reflexivity.
Qed.

Variable zip_bytes : list (pystr * bytes) -> bytes.
Variable unpack : bytes -> bytes.
Lemma saved p ms r s yes : s p = None ->
  let '(s', r') := base_start zip_ok (Create p :: write_all p (zip_bytes ms), Fail r) p true yes None s in
  r' = Fail r /\ s' p = Some (zip_bytes ms).
Proof.
  intros N. unfold base_start, absent. rewrite N. cbn [orb]. unfold finish_call. cbn [fst snd obind].
  split; [reflexivity | apply exec_create].
Qed.
Lemma neumf_leftover p train test s yes : s p = None -> (forall b, train <> Body b Complete) ->
  let '(s', r) := base_start zip_ok (neumf_save zip_bytes p train test) p true yes None s in
  r = Fail NetworkError /\ s' p = Some (zip_bytes [(str "train"%string, [])]).
Proof.
  intros N H. unfold neumf_save. cbn [neumf_members].
  destruct train as [c| |b [| |]]; try (now apply saved). now elim (H b).
Qed.
Lemma neumf_leftover_test p a test s yes : s p = None -> (forall b, test <> Body b Complete) ->
  let '(s', r) := base_start zip_ok (neumf_save zip_bytes p (Body a Complete) test) p true yes None s in
  r = Fail NetworkError /\ s' p = Some (zip_bytes [(str "train"%string, a); (str "test"%string, [])]).
Proof.
  intros N H. unfold neumf_save. cbn [neumf_members].
  destruct test as [c| |b [| |]]; try (now apply saved). now elim (H b).
Qed.
Lemma amazon_leftover p ratings meta s yes : s p = None -> (forall b, ratings <> Body b Complete) ->
  let '(s', r) := base_start zip_ok (amazon_save zip_bytes unpack p ratings meta) p true yes None s in
  r = Fail NetworkError /\ s' p = Some (zip_bytes []).
Proof.
  intros N H. unfold amazon_save.
  destruct ratings as [c| |b [| |]]; try (now apply saved). now elim (H b).
Qed.
End InPlace.

(** ** A file that is there is never fetched again *)
Lemma start_existing zip_ok paths s sn :
  valid_size (sn_size sn) = true -> valid_source (sn_source sn) = true ->
  (forall p, In p paths -> s p <> None) ->
  mind_start zip_ok paths s sn = (s, open_all zip_ok s paths).
Proof.
  intros Sz So H. unfold mind_start, mind_prepare. rewrite Sz, So. cbn [negb].
  assert (E : filter (absent s) paths = []).
  { clear - H. induction paths as [|p l IH]; [reflexivity|]. cbn. unfold absent at 1.
    destruct (s p) eqn:E; [|elim (H p); [now left | exact E]].
    apply IH. intros q I. apply H. now right. }
  rewrite E. unfold finish_call. cbn.
  destruct (sn_kill sn) as [k|]; [|reflexivity].
  destruct (k <? 0)%nat eqn:L; [apply Nat.ltb_lt in L; lia | reflexivity].
Qed.
