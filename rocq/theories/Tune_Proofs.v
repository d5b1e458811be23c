(** Hyper-parameter search. *)
From Verif Require Import Base EarlyStop_Model EarlyStop_Proofs PyStr_Model Tune_Model Tune_Spec.
From Coq Require Import QArith.
Local Open Scope nat_scope.

(** ** Dictionaries *)
Lemma pystr_eqb_spec a b : reflect (a = b) (pystr_eqb a b).
Proof. unfold pystr_eqb. destruct (list_eq_dec Z.eq_dec a b); now constructor. Qed.
Lemma dict_get_in d k v : dict_get d k = Some v -> In (k, v) d.
Proof.
  induction d as [|[k' v'] d IH]; cbn; [discriminate|]. destruct (pystr_eqb_spec k' k); [intros [= <-]; left; congruence|auto].
Qed.
Lemma dict_get_none d k : dict_get d k = None <-> ~ In k (keys d).
Proof.
  induction d as [|[k' v'] d IH]; cbn; [tauto|]. destruct (pystr_eqb_spec k' k) as [->|N]; [split; [discriminate|tauto]|].
  rewrite IH. tauto.
Qed.
Lemma has_key_spec d k : has_key d k = true <-> In k (keys d).
Proof.
  unfold has_key. destruct (dict_get d k) eqn:E.
  - split; [intros _|reflexivity]. apply dict_get_in in E. apply (in_map fst) in E. exact E.
  - split; [discriminate|]. now apply dict_get_none in E.
Qed.
Lemma keys_set d k v : keys (dict_set d k v) = if has_key d k then keys d else keys d ++ [k].
Proof.
  unfold keys. induction d as [|[k' v'] d IH]; [reflexivity|]. unfold has_key in *. cbn. destruct (pystr_eqb_spec k' k); [reflexivity|].
  cbn. rewrite IH. destruct (dict_get d k); reflexivity.
Qed.
Lemma nodup_snoc {A} (l : list A) x : NoDup l -> ~ In x l -> NoDup (l ++ [x]).
Proof.
  intros H N. apply NoDup_rev in H. rewrite <- (rev_involutive (l ++ [x])). apply NoDup_rev. rewrite rev_app_distr. cbn.
  constructor; [|exact H]. now rewrite <- in_rev.
Qed.
Lemma set_ok d k v : dict_ok d -> dict_ok (dict_set d k v).
Proof.
  unfold dict_ok. rewrite keys_set. destruct (has_key d k) eqn:E; [auto|]. intros H. apply nodup_snoc; [exact H|].
  intros I. apply has_key_spec in I. congruence.
Qed.
Lemma set_in d k v k' v' : dict_ok d -> (In (k', v') (dict_set d k v) <-> (k' = k /\ v' = v) \/ (k' <> k /\ In (k', v') d)).
Proof.
  unfold dict_ok. induction d as [|[a b] d IH]; intros H; cbn.
  - split; [intros [[= <- <-]|[]]; auto|]. intros [[-> ->]|[_ []]]; auto.
  - inversion H as [|? ? Na Nd]; subst. destruct (pystr_eqb_spec a k) as [->|N]; cbn.
    + split.
      * intros [[= <- <-]|I]; [auto|]. right. split; [|auto]. intros ->. apply Na. apply (in_map fst) in I. exact I.
      * intros [[-> ->]|[N [[= E _]|I]]]; [auto|congruence|auto].
    + rewrite IH by exact Nd. split.
      * intros [[= <- <-]|[?|[? ?]]]; auto.
      * intros [[-> ->]|[N' [[= <- <-]|I]]]; auto.
Qed.
Lemma update_ok e : forall d, dict_ok d -> dict_ok (dict_update d e).
Proof. induction e as [|[k v] e IH]; intros d H; [exact H|]. cbn. apply IH. now apply set_ok. Qed.
Lemma update_in e : dict_ok e -> forall d k v, dict_ok d ->
  (In (k, v) (dict_update d e) <-> In (k, v) e \/ (~ In k (keys e) /\ In (k, v) d)).
Proof.
  induction e as [|[a b] e IH]; intros He d k v Hd; [cbn; tauto|]. inversion He as [|? ? Na Ne]; subst.
  change (dict_update d ((a, b) :: e)) with (dict_update (dict_set d a b) e).
  rewrite IH by (auto using set_ok). rewrite set_in by exact Hd. cbn. split.
  - intros [?|[N [[-> ->]|[N' I]]]]; auto. right. split; [|exact I]. intros [?|?]; auto.
  - intros [[[= <- <-]|I]|[N I]]; [right; auto|now left|].
    right. split; [intros H; apply N; now right|]. right. split; [intros ->; apply N; now left|exact I].
Qed.
Lemma update_nil e : dict_ok e -> dict_update [] e = e.
Proof.
  intros He. assert (G : forall d, dict_ok (d ++ e) -> dict_update d e = d ++ e).
  - induction e as [|[a b] e IH]; intros d H; [now rewrite app_nil_r|]. inversion He as [|? ? Na Ne]; subst.
    change (dict_update d ((a, b) :: e)) with (dict_update (dict_set d a b) e).
    assert (S : dict_set d a b = d ++ [(a, b)]).
    { unfold dict_ok, keys in H. rewrite map_app in H. cbn in H. apply NoDup_remove_2 in H.
      assert (N : ~ In a (map fst d)) by (intros I; apply H, in_or_app; now left). clear - N.
      induction d as [|[x y] d IH]; [reflexivity|]. cbn in *. destruct (pystr_eqb_spec x a); [subst; tauto|]. rewrite IH by tauto. reflexivity. }
    rewrite S, IH; [now rewrite <- app_assoc| |]; [exact Ne|]. now rewrite <- app_assoc.
  - apply G. exact He.
Qed.
Lemma merge_in d e r : dict_merge d e = Ok r -> (forall k v, In (k, v) r <-> In (k, v) d \/ In (k, v) e) /\
  (forall k, In k (keys d) -> In k (keys e) -> False).
Proof.
  unfold dict_merge. destruct (existsb _ e) eqn:E; [discriminate|]. intros [= <-]. split; [intros; apply in_app_iff|].
  intros k H1 H2. apply in_map_iff in H2. destruct H2 as ([k' v] & <- & I). cbn in H1.
  assert (existsb (fun kv : pystr * pyval => has_key d (fst kv)) e = true); [|congruence].
  apply existsb_exists. exists (k', v). split; [exact I|]. now apply has_key_spec.
Qed.
Lemma merge_ok d e r : dict_ok d -> dict_ok e -> dict_merge d e = Ok r -> dict_ok r.
Proof.
  intros Hd He E. destruct (merge_in _ _ _ E) as [_ N]. unfold dict_merge in E. destruct (existsb _ e); [discriminate|]. injection E as <-.
  unfold dict_ok, keys in *. rewrite map_app. induction d as [|[a b] d IH]; [exact He|]. cbn in *. inversion Hd; subst. constructor.
  - rewrite in_app_iff. intros [?|?]; [tauto|]. apply (N a); auto.
  - apply IH; [assumption|]. intros k H3 H4. apply (N k); auto.
Qed.

(** ** Trials *)
Section Tune.
Variable digit_value : Z -> option Z.
Variable sample : nat -> sampler.
Variable train : nat -> dict -> trial_result.

Definition trial_of (suggest : suggest_function) (fixed : dict) (n : nat) : trial := fst (run_trial sample train suggest fixed n).

Lemma trial_fields suggest fixed n : let t := trial_of suggest fixed n in
  t_number t = n /\ t_params t = snd (suggest (sample n)) /\ t_used t = dict_update (fst (suggest (sample n))) fixed /\
  (forall v, t_state t = Complete v <-> exists sc learnt, train n (t_used t) = Scored sc learnt /\ sc <> NaN /\ v = fneg sc) /\
  (forall sc learnt, train n (t_used t) = Scored sc learnt -> t_attrs t = dict_update [] learnt).
Proof.
  unfold trial_of, run_trial. destruct (suggest (sample n)) as [d a]. cbn [fst snd]. destruct (train n (dict_update d fixed)) as [sc learnt|last|e] eqn:E.
  - destruct sc; cbn [fst t_number t_params t_used t_state t_attrs]; rewrite E; repeat (split; [reflexivity|]); (split; [|intros ? ? [= _ <-]; reflexivity]); intros v; split;
      try discriminate; try (intros [= <-]; eexists _, _; split; [reflexivity|split; [discriminate|reflexivity]]);
      try (intros (x & y & [= <- <-] & N & ->); solve [reflexivity|contradiction]).
  - cbn [fst t_number t_params t_used t_state t_attrs]. rewrite E. repeat (split; [reflexivity|]). split; [|discriminate].
    intros v. split; [discriminate|]. intros (x & y & H & _). discriminate.
  - cbn [fst t_number t_params t_used t_state t_attrs]. rewrite E. repeat (split; [reflexivity|]). split; [|discriminate].
    intros v. split; [discriminate|]. intros (x & y & H & _). discriminate.
Qed.

Lemma optimize_trials suggest fixed n : forall s, exists k, k <= n /\
  fst (optimize sample train suggest fixed n s) = s ++ map (trial_of suggest fixed) (seq (length s) k) /\
  (snd (optimize sample train suggest fixed n s) = None -> k = n).
Proof.
  induction n as [|n IH]; intros s; cbn [optimize].
  - exists 0. cbn. rewrite app_nil_r. auto.
  - destruct (run_trial sample train suggest fixed (length s)) as [t [e|]] eqn:E; assert (Et : trial_of suggest fixed (length s) = t) by (unfold trial_of; now rewrite E).
    + exists 1. cbn. rewrite Et. split; [lia|]. split; [reflexivity|discriminate].
    + destruct (IH (s ++ [t])) as (k & Hk & E1 & E2). exists (S k). split; [lia|]. rewrite E1, app_length, Nat.add_1_r. cbn [seq map].
      rewrite Et, <- app_assoc. split; [reflexivity|]. intros H. now rewrite (E2 H).
Qed.

(** ** The best trial *)
Lemma fgt_le_trans w v v' : fgt w v = true -> fgt w v' = false -> v' <> NaN -> fgt v' v = true.
Proof.
  destruct w, v, v'; cbn; intros H1 H2 H3; try congruence. apply negb_true_iff in H1. apply negb_false_iff in H2.
  apply negb_true_iff, not_true_iff_false. intros H. apply not_true_iff_false in H1. apply H1. apply Qle_bool_iff in H, H2. apply Qle_bool_iff.
  eapply Qle_trans; eassumption.
Qed.
Lemma best_of_spec s2 : forall s1 best,
  match best with
  | None => forall t v, In t s1 -> t_state t <> Complete v
  | Some (t, v) => least_complete s1 t v /\ v <> NaN
  end -> study_ok (s1 ++ s2) ->
  match best_of s2 best with
  | None => forall t v, In t (s1 ++ s2) -> t_state t <> Complete v
  | Some (t, v) => least_complete (s1 ++ s2) t v /\ v <> NaN
  end.
Proof.
  induction s2 as [|x s2 IH]; intros s1 best H OK; cbn [best_of]; [now rewrite app_nil_r|].
  replace (s1 ++ x :: s2) with ((s1 ++ [x]) ++ s2) in * by now rewrite <- app_assoc.
  assert (SKIP : (forall v, t_state x <> Complete v) -> match best with
    | None => forall t v, In t (s1 ++ [x]) -> t_state t <> Complete v
    | Some (t, v) => least_complete (s1 ++ [x]) t v /\ v <> NaN end).
  { intros N. destruct best as [[t v]|].
    - destruct H as [(b & a & -> & S & L & F) NN]. split; [|exact NN]. exists b, (a ++ [x]). rewrite <- app_assoc. cbn. split; [reflexivity|]. split; [exact S|]. split; [|exact F].
      intros t' v' I E. apply in_app_or in I. destruct I as [I|[->|I]]; [apply (L t'); [apply in_or_app; auto|exact E]|apply (L t'); [apply in_or_app; right; now left|exact E]|].
      apply in_app_or in I. destruct I as [I|[->|[]]]; [apply (L t'); [apply in_or_app; right; now right|exact E]|]. now apply N in E.
    - intros t v I. apply in_app_or in I. destruct I as [I|[->|[]]]; [now apply H|apply N]. }
  destruct (t_state x) as [v| |] eqn:Ex; [|destruct best as [[? ?]|]; apply IH; auto; apply SKIP; discriminate|destruct best as [[? ?]|]; apply IH; auto; apply SKIP; discriminate].
  assert (Hv : v <> NaN) by (apply (OK x); [apply in_or_app; left; apply in_or_app; right; now left|exact Ex]).
  destruct best as [[t w]|].
  - destruct H as [(b & a & -> & S & L & F) NN]. destruct (fgt w v) eqn:Eg; apply IH; auto.
    + split; [|exact Hv]. exists (b ++ t :: a), []. split; [reflexivity|]. split; [exact Ex|].
      assert (BEFORE : forall t' v', In t' (b ++ t :: a) -> t_state t' = Complete v' -> fgt v' v = true).
      { intros t' v' I E. apply (fgt_le_trans w); [exact Eg|eapply L; eassumption|].
        apply (OK t'); [|exact E]. apply in_or_app. left. apply in_or_app. now left. }
      split; [|exact BEFORE]. intros t' v' I E. apply in_app_or in I. destruct I as [I|[<-|[]]]; [apply fgt_asym; eauto|]. rewrite Ex in E. injection E as <-. apply fgt_irr.
    + split; [|exact NN]. exists b, (a ++ [x]). rewrite <- app_assoc. split; [reflexivity|]. split; [exact S|]. split; [|exact F].
      intros t' v' I E. change ((t :: a) ++ [x]) with (t :: a ++ [x]) in I. replace (b ++ t :: a ++ [x]) with ((b ++ t :: a) ++ [x]) in I by now rewrite <- app_assoc.
      apply in_app_or in I. destruct I as [I|[<-|[]]]; [now apply (L t')|]. rewrite Ex in E. injection E as <-. exact Eg.
  - apply IH; auto. split; [|exact Hv]. exists s1, []. split; [reflexivity|]. split; [exact Ex|]. split.
    + intros t' v' I E. apply in_app_or in I. destruct I as [I|[<-|[]]]; [now apply H in E|]. rewrite Ex in E. injection E as <-. apply fgt_irr.
    + intros t' v' I E. now apply H in E.
Qed.

Definition used_suggest (suggest : option suggest_function) (range : list (pystr * dist)) (fixed : dict) : suggest_function :=
  match suggest with Some f => f | None => default_suggest range fixed end.

Lemma trial_of_ok f fixed n v : t_state (trial_of f fixed n) = Complete v -> v <> NaN.
Proof.
  intros H. apply (trial_fields f fixed n) in H. destruct H as (sc & learnt & _ & N & ->). destruct sc; try discriminate. contradiction.
Qed.
Lemma tune_trials data ds suggest range fixed n s :
  (data = true \/ ds = true) ->
  let res := tune digit_value sample train data ds suggest range fixed n s in
  exists k, k <= n /\ fst res = s ++ map (trial_of (used_suggest suggest range fixed) fixed) (seq (length s) k).
Proof.
  intros Hd. unfold tune. replace (negb data && negb ds) with false by (destruct Hd as [-> | ->]; [reflexivity|destruct data; reflexivity]).
  fold (used_suggest suggest range fixed).
  destruct (optimize_trials (used_suggest suggest range fixed) fixed n s) as (k & Hk & E & _). exists k. split; [exact Hk|].
  destruct (optimize _ _ _ _ _ _) as [s' [e|]]; cbn [fst] in *; exact E.
Qed.
Lemma tune_ok data ds suggest range fixed n s : study_ok s -> study_ok (fst (tune digit_value sample train data ds suggest range fixed n s)).
Proof.
  intros OK. destruct (negb data && negb ds) eqn:E; [unfold tune; now rewrite E|].
  destruct (tune_trials data ds suggest range fixed n s) as (k & _ & ->).
  { apply andb_false_iff in E. rewrite !negb_false_iff in E. exact E. }
  intros t v I S. apply in_app_or in I. destruct I as [I|I]; [eapply OK; eassumption|]. apply in_map_iff in I. destruct I as (j & <- & _). eapply trial_of_ok; exact S.
Qed.
Lemma best_trial_spec s : study_ok s ->
  (forall t, best_trial s = Ok t -> exists v, least_complete s t v) /\
  ((exists t v, In t s /\ t_state t = Complete v) <-> exists t, best_trial s = Ok t) /\
  (forall t, best_trial s = Ok t \/ best_trial s = Fail ValueError \/ exists t', best_trial s = Ok t').
Proof.
  intros OK. unfold best_trial. pose proof (best_of_spec s [] None) as H. cbn [app] in H. specialize (H (fun t v (I : In t []) => match I with end) OK).
  destruct (best_of s None) as [[t v]|].
  - split; [intros t' [= <-]; exists v; apply H|]. split; [|eauto]. split; [eauto|]. intros _. exists t, v. destruct H as [(b & a & -> & S & _) _].
    split; [apply in_or_app; right; now left|exact S].
  - split; [discriminate|]. split; [|auto]. split; [intros (t & v & I & S); now apply H in S|]. intros (t & E). discriminate.
Qed.
Lemma tune_best data ds suggest range fixed n s best : study_ok s ->
  let res := tune digit_value sample train data ds suggest range fixed n s in
  snd res = Ok best -> exists t v, least_complete (fst res) t v /\ best_trial (fst res) = Ok t /\
    dict_merge (t_params t) (filter (fun kv => is_valid_param_name digit_value (fst kv)) (t_attrs t)) = Ok best /\
    forall k x, In (k, x) best <-> In (k, x) (t_params t) \/ (In (k, x) (t_attrs t) /\ is_valid_param_name digit_value k = true).
Proof.
  intros OK. cbn zeta. pose proof (tune_ok data ds suggest range fixed n s OK) as OK'. revert OK'. unfold tune.
  destruct (negb data && negb ds); [discriminate|]. destruct (optimize _ _ _ _ _ _) as [s' [e|]]; cbn [fst snd]; [discriminate|]. intros OK'.
  unfold best_params. destruct (best_trial s') as [t| | |] eqn:E; try discriminate. cbn [obind]. intros M.
  destruct (proj1 (best_trial_spec s' OK') t E) as (v & L). exists t, v. split; [exact L|]. split; [reflexivity|]. split; [exact M|].
  intros k x. rewrite (proj1 (merge_in _ _ _ M) k x), filter_In. reflexivity.
Qed.
Lemma tune_no_best data ds suggest range fixed n s : study_ok s -> (data = true \/ ds = true) ->
  (forall k d e, train k d <> Raised e) ->
  let res := tune digit_value sample train data ds suggest range fixed n s in
  (forall t v, In t (fst res) -> t_state t <> Complete v) -> snd res = Fail ValueError.
Proof.
  intros OK Hd NR. cbn zeta. pose proof (tune_ok data ds suggest range fixed n s OK) as OK'. revert OK'. unfold tune.
  replace (negb data && negb ds) with false by (destruct Hd as [-> | ->]; [reflexivity|destruct data; reflexivity]).
  assert (NE : forall f m q, snd (optimize sample train f fixed m q) = None).
  { intros f. induction m as [|m IH]; intros q; cbn [optimize]; [reflexivity|]. unfold run_trial. destruct (f (sample (length q))) as [d a].
    destruct (train (length q) (dict_update d fixed)) as [[] ?| |] eqn:E; try apply IH. now apply NR in E. }
  specialize (NE (match suggest with Some f => f | None => default_suggest range fixed end) n s).
  destruct (optimize _ _ _ _ _ _) as [s' o]. cbn [snd] in NE. subst o. cbn [fst snd]. intros OK' N. unfold best_params.
  destruct (best_trial_spec s' OK') as (_ & [_ H1] & H2). destruct (best_trial s') as [t| | |] eqn:E; [destruct (H1 (ex_intro _ t eq_refl)) as (t' & v & I & S); now apply N in S|..];
    destruct (H2 (mkTrial 0 [] [] Failed [])) as [H|[H|(t' & H)]]; try discriminate; cbn; congruence.
Qed.

Lemma fixed_wins f fixed n : dict_ok fixed -> dict_ok (fst (f (sample n))) ->
  let t := trial_of f fixed n in
  dict_ok (t_used t) /\ (forall k x, In (k, x) fixed -> In (k, x) (t_used t)) /\
  (forall k x, ~ In k (keys fixed) -> (In (k, x) (t_used t) <-> In (k, x) (fst (f (sample n))))) /\
  t_params t = snd (f (sample n)) /\ t_number t = n.
Proof.
  intros Hf Hs. destruct (trial_fields f fixed n) as (F1 & F2 & F3 & _). cbn zeta in *. rewrite F1, F2, F3.
  split; [now apply update_ok|]. split; [intros k x I; apply update_in; auto|]. split; [|auto].
  intros k x N. rewrite update_in by assumption. split; [intros [I|[_ I]]; [|exact I]|auto]. exfalso. apply N. apply (in_map fst) in I. exact I.
Qed.

(** ** Default suggestions *)
Lemma default_in range fixed ask : NoDup (map fst range) ->
  dict_ok (fst (default_suggest range fixed ask)) /\
  forall k x, In (k, x) (fst (default_suggest range fixed ask)) <-> exists ds, In (k, ds) range /\ ~ In k (keys fixed) /\ x = ask k ds.
Proof.
  intros ND. cbn [default_suggest fst].
  assert (G : forall rest done d, NoDup (map fst (done ++ rest)) -> dict_ok d ->
    (forall k x, In (k, x) d <-> exists ds, In (k, ds) done /\ ~ In k (keys fixed) /\ x = ask k ds) ->
    let d' := fold_left (fun d r => if has_key fixed (fst r) then d else dict_set d (fst r) (ask (fst r) (snd r))) rest d in
    dict_ok d' /\ forall k x, In (k, x) d' <-> exists ds, In (k, ds) (done ++ rest) /\ ~ In k (keys fixed) /\ x = ask k ds).
  { induction rest as [|[a ds] rest IH]; intros done d N OK H; cbn [fold_left].
    - rewrite app_nil_r. auto.
    - replace (done ++ (a, ds) :: rest) with ((done ++ [(a, ds)]) ++ rest) in * by now rewrite <- app_assoc. apply IH; [exact N| |]; cbn [fst snd].
      + destruct (has_key fixed a); [exact OK|now apply set_ok].
      + intros k x. destruct (has_key fixed a) eqn:E.
        * rewrite H. apply has_key_spec in E. split; intros (ds' & I & R & X); exists ds'; (split; [|auto]).
          -- apply in_or_app. now left.
          -- apply in_app_or in I. destruct I as [I|[[= <- <-]|[]]]; [exact I|contradiction].
        * rewrite set_in by exact OK. rewrite H. split.
          -- intros [[-> ->]|[Nk (ds' & I & R & X)]].
             ++ exists ds. split; [apply in_or_app; right; now left|]. split; [|reflexivity]. intros I. apply has_key_spec in I. congruence.
             ++ exists ds'. split; [apply in_or_app; now left|auto].
          -- intros (ds' & I & R & X). apply in_app_or in I. destruct I as [I|[[= <- <-]|[]]]; [|left; auto].
             right. split; [|exists ds'; auto]. intros ->. rewrite <- app_assoc, map_app in N. cbn in N. apply NoDup_remove_2 in N. apply N.
             apply in_or_app. left. apply (in_map fst) in I. exact I. }
  apply (G range [] []); [exact ND|constructor|]. intros k x. split; [intros []|]. intros (ds & [] & _).
Qed.

Lemma default_reproduces range fixed n best : NoDup (map fst range) -> dict_ok fixed ->
  let res := tune digit_value sample train true false None range fixed n [] in
  snd res = Ok best -> exists t v, least_complete (fst res) t v /\
    (forall k x, In (k, x) (t_used t) <-> In (k, x) fixed \/ In (k, x) (t_params t)) /\
    (forall k, In k (keys (t_params t)) -> ~ In k (keys fixed)) /\
    (forall k x, In (k, x) best <-> In (k, x) (t_params t) \/ (In (k, x) (t_attrs t) /\ is_valid_param_name digit_value k = true)).
Proof.
  intros ND Hf. cbn zeta. intros E. destruct (tune_best true false None range fixed n [] best ltac:(intros ? ? []) E) as (t & v & L & _ & _ & B).
  exists t, v. split; [exact L|]. destruct L as (b & a & Es & _).
  destruct (tune_trials true false None range fixed n [] (or_introl eq_refl)) as (k & _ & Et). cbn [app length used_suggest] in Et.
  assert (I : In t (fst (tune digit_value sample train true false None range fixed n []))) by (rewrite Es; apply in_or_app; right; now left).
  rewrite Et in I. apply in_map_iff in I. destruct I as (j & <- & _). destruct (default_in range fixed (sample j) ND) as [D1 D2].
  destruct (fixed_wins (default_suggest range fixed) fixed j Hf D1) as (_ & _ & _ & P & _).
  destruct (trial_fields (default_suggest range fixed) fixed j) as (_ & _ & U & _). cbn zeta in U.
  assert (PN : forall k, In k (keys (t_params (trial_of (default_suggest range fixed) fixed j))) -> ~ In k (keys fixed)).
  { intros k' Ik. rewrite P in Ik. apply in_map_iff in Ik. destruct Ik as ([k'' x] & <- & Ik). apply D2 in Ik. destruct Ik as (ds & _ & N & _). exact N. }
  split; [|split; [exact PN|exact B]]. intros k' x. rewrite U, update_in by assumption. rewrite P. cbn [default_suggest fst snd]. split.
  - intros [?|[_ ?]]; auto.
  - intros [?|I]; [auto|]. right. split; [|exact I]. apply PN. rewrite P. apply (in_map fst) in I. exact I.
Qed.

Lemma best_score suggest range fixed n best :
  let res := tune digit_value sample train true false suggest range fixed n [] in
  snd res = Ok best -> exists t sc learnt, In t (fst res) /\ train (t_number t) (t_used t) = Scored sc learnt /\ sc <> NaN /\
    (forall k x, In (k, x) best <-> In (k, x) (t_params t) \/ (In (k, x) (dict_update [] learnt) /\ is_valid_param_name digit_value k = true)) /\
    forall t' sc' learnt', In t' (fst res) -> train (t_number t') (t_used t') = Scored sc' learnt' -> fgt sc' sc = false.
Proof.
  cbn zeta. intros E. destruct (tune_best true false suggest range fixed n [] best ltac:(intros ? ? []) E) as (t & v & L & _ & _ & B).
  destruct (tune_trials true false suggest range fixed n [] (or_introl eq_refl)) as (k & _ & Et). cbn [app length] in Et.
  destruct L as (b & a & Es & S & L & F).
  assert (I : In t (fst (tune digit_value sample train true false suggest range fixed n []))) by (rewrite Es; apply in_or_app; right; now left).
  set (s := fst (tune digit_value sample train true false suggest range fixed n [])) in *. clearbody s.
  pose proof I as I'. rewrite Et in I'. apply in_map_iff in I'. destruct I' as (j & <- & _).
  destruct (trial_fields (used_suggest suggest range fixed) fixed j) as (N & _ & _ & C & A). cbn zeta in *.
  pose proof S as S'. apply C in S'. destruct S' as (sc & learnt & Tr & NN & ->).
  exists (trial_of (used_suggest suggest range fixed) fixed j), sc, learnt. split; [exact I|]. rewrite N. split; [exact Tr|]. split; [exact NN|].
  split; [intros k' x; rewrite B, (A _ _ Tr); reflexivity|].
  intros t' sc' learnt' I' Tr'. destruct (fgt sc' sc) eqn:G; [|reflexivity].
  pose proof I' as J'. rewrite Et in J'. apply in_map_iff in J'. destruct J' as (j' & <- & _).
  destruct (trial_fields (used_suggest suggest range fixed) fixed j') as (N' & _ & _ & C' & _). cbn zeta in *. rewrite N' in Tr'.
  assert (NN' : sc' <> NaN) by (eapply fgt_not_nan; exact G).
  assert (S' : t_state (trial_of (used_suggest suggest range fixed) fixed j') = Complete (fneg sc')) by (apply C'; eauto).
  pose proof (L _ _ I' S') as L'. rewrite <- L'.
  destruct sc, sc'; cbn in *; try discriminate; try reflexivity; try contradiction.
  apply negb_true_iff in G. symmetry. apply negb_true_iff, not_true_iff_false. intros Q. apply Qle_bool_iff in Q. apply not_true_iff_false in G. apply G.
  apply Qle_bool_iff. apply Qopp_le_compat in Q. now rewrite !Qopp_involutive in Q.
Qed.
End Tune.

Lemma tune_fixed_win digit_value sample train data data_suggest suggest range fixed n s :
  data = true \/ data_suggest = true -> dict_ok fixed ->
  let f := match suggest with Some f => f | None => default_suggest range fixed end in
  (forall k, dict_ok (fst (f (sample k)))) ->
  let res := tune digit_value sample train data data_suggest suggest range fixed n s in
  exists new, fst res = s ++ new /\ forall t, In t new ->
    dict_ok (t_used t) /\ (forall k x, In (k, x) fixed -> In (k, x) (t_used t)) /\
    (forall k x, ~ In k (keys fixed) -> (In (k, x) (t_used t) <-> In (k, x) (fst (f (sample (t_number t)))))).
Proof.
  intros Hd Hf f Hs. cbn zeta. destruct (tune_trials digit_value sample train data data_suggest suggest range fixed n s Hd) as (k & _ & E).
  eexists. split; [exact E|]. intros t I. apply in_map_iff in I. destruct I as (j & <- & _).
  destruct (fixed_wins sample train (used_suggest suggest range fixed) fixed j Hf (Hs j)) as (F1 & F2 & F3 & _ & F5). cbn zeta in *. rewrite F5. auto.
Qed.
Lemma tune_best_study digit_value sample train data data_suggest suggest range fixed n s best : study_ok s ->
  let res := tune digit_value sample train data data_suggest suggest range fixed n s in
  snd res = Ok best -> exists t v, least_complete (fst res) t v /\
    forall k x, In (k, x) best <-> In (k, x) (t_params t) \/ (In (k, x) (t_attrs t) /\ is_valid_param_name digit_value k = true).
Proof.
  intros OK. cbn zeta. intros E. destruct (tune_best digit_value sample train data data_suggest suggest range fixed n s best OK E) as (t & v & L & _ & _ & H). eauto.
Qed.
Lemma tune_errors digit_value sample train data data_suggest suggest range fixed n s : study_ok s ->
  (forall k d e, train k d <> Raised e) ->
  let res := tune digit_value sample train data data_suggest suggest range fixed n s in
  (data = false /\ data_suggest = false \/ (forall t v, In t (fst res) -> t_state t <> Complete v)) -> snd res = Fail ValueError.
Proof.
  intros OK NR. cbn zeta. destruct (negb data && negb data_suggest) eqn:E; [intros _; unfold tune; now rewrite E|].
  apply andb_false_iff in E. rewrite !negb_false_iff in E. intros [[-> ->]|H]; [destruct E; discriminate|]. apply tune_no_best; auto.
Qed.
