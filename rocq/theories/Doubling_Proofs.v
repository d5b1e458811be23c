(** Dimension doubling. *)
From Verif Require Import Base EarlyStop_Model EarlyStop_Proofs PyStr_Model Tune_Model Tune_Spec Tune_Proofs.
From Coq Require Import QArith.
Local Open Scope nat_scope.

Lemma nle_trans a b c : fgt a b = false -> fgt b c = false -> b <> NaN -> fgt a c = false.
Proof.
  destruct a, b, c; cbn; intros H1 H2 H3; try congruence. apply negb_false_iff in H1, H2. apply negb_false_iff.
  apply Qle_bool_iff in H1, H2. apply Qle_bool_iff. eapply Qle_trans; eassumption.
Qed.

(** ** The least shown value *)
Lemma value_min_spec s : let m := value_min s in
  (m = NaN /\ forall t v, In t s -> shown_value t = Some v -> v = NaN) \/
  (m <> NaN /\ (exists t, In t s /\ shown_value t = Some m) /\ forall t v, In t s -> shown_value t = Some v -> fgt m v = false).
Proof.
  unfold value_min.
  set (step := fun m t => match shown_value t with Some v => match m with NaN => v | _ => if fgt m v then v else m end | None => m end).
  assert (G : forall rest done m0,
    ((m0 = NaN /\ forall t v, In t done -> shown_value t = Some v -> v = NaN) \/
     (m0 <> NaN /\ (exists t, In t done /\ shown_value t = Some m0) /\ forall t v, In t done -> shown_value t = Some v -> fgt m0 v = false)) ->
    let m := fold_left step rest m0 in
    (m = NaN /\ forall t v, In t (done ++ rest) -> shown_value t = Some v -> v = NaN) \/
    (m <> NaN /\ (exists t, In t (done ++ rest) /\ shown_value t = Some m) /\ forall t v, In t (done ++ rest) -> shown_value t = Some v -> fgt m v = false)).
  { induction rest as [|t rest IH]; intros done m0 H; cbn [fold_left]; [now rewrite app_nil_r|].
    replace (done ++ t :: rest) with ((done ++ [t]) ++ rest) by now rewrite <- app_assoc. apply IH.
    assert (S1 : forall x, In x (done ++ [t]) -> In x done \/ x = t) by (intros x I; apply in_app_or in I; destruct I as [I|[I|[]]]; auto).
    assert (S2 : forall x, In x done -> In x (done ++ [t])) by (intros; apply in_or_app; now left).
    assert (S3 : In t (done ++ [t])) by (apply in_or_app; right; now left).
    unfold step. destruct (shown_value t) as [w|] eqn:E.
    - destruct H as [[-> H]|(N & (t0 & I0 & E0) & H)].
      + destruct (match w with NaN => true | _ => false end) eqn:EW.
        * assert (w = NaN) by (destruct w; auto; discriminate). subst w. left. split; [reflexivity|]. intros x v I Ex. apply S1 in I. destruct I as [I| ->]; [eauto|congruence].
        * assert (NW : w <> NaN) by (intros ->; discriminate). right. split; [exact NW|]. split; [eauto|]. intros x v I Ex. apply S1 in I. destruct I as [I| ->].
          -- rewrite (H _ _ I Ex). destruct w; reflexivity.
          -- rewrite E in Ex. injection Ex as <-. apply fgt_irr.
      + replace (match m0 with NaN => w | _ => if fgt m0 w then w else m0 end) with (if fgt m0 w then w else m0) by (destruct m0; auto; contradiction).
        right. destruct (fgt m0 w) eqn:G.
        * assert (NW : w <> NaN) by (intros ->; destruct m0; discriminate). split; [exact NW|]. split; [eauto|]. intros x v I Ex. apply S1 in I. destruct I as [I| ->].
          -- eapply nle_trans; [apply fgt_asym; exact G|eauto|exact N].
          -- rewrite E in Ex. injection Ex as <-. apply fgt_irr.
        * split; [exact N|]. split; [eauto|]. intros x v I Ex. apply S1 in I. destruct I as [I| ->]; [eauto|]. rewrite E in Ex. injection Ex as <-. exact G.
    - destruct H as [[-> H]|(N & (t0 & I0 & E0) & H)].
      + left. split; [reflexivity|]. intros x v I Ex. apply S1 in I. destruct I as [I| ->]; [eauto|congruence].
      + right. split; [exact N|]. split; [eauto|]. intros x v I Ex. apply S1 in I. destruct I as [I| ->]; [eauto|congruence]. }
  apply (G s [] NaN). left. split; [reflexivity|]. intros ? ? [].
Qed.
Lemma value_min_best s t v : study_ok s -> fair_pruning s -> least_complete s t v ->
  value_min s <> NaN /\ v <> NaN /\ fgt (value_min s) v = false /\ fgt v (value_min s) = false.
Proof.
  intros OK FP (b & a & Es & S & L & _). assert (I : In t s) by (rewrite Es; apply in_or_app; right; now left).
  assert (NV : v <> NaN) by (eapply OK; eassumption). assert (SH : shown_value t = Some v) by (unfold shown_value; now rewrite S).
  destruct (value_min_spec s) as [[E H]|(N & (t0 & I0 & E0) & H)]; cbn zeta in *.
  - exfalso. apply NV. eauto.
  - split; [exact N|]. split; [exact NV|]. split; [eauto|]. unfold shown_value in E0. destruct (t_state t0) as [w|o|] eqn:E1; [| |discriminate].
    + injection E0 as <-. eauto.
    + subst o. destruct (FP _ _ I0 E1) as (t' & v' & I' & S' & G). eapply nle_trans; [eapply L; eassumption|exact G|eapply OK; eassumption].
Qed.
Lemma least_spec (l : list entry) : forall e : entry, (forall x : entry, In x (e :: l) -> fst (fst x) <> NaN) ->
  In (least e l) (e :: l) /\ forall x, In x (e :: l) -> fgt (fst (fst (least e l))) (fst (fst x)) = false.
Proof.
  induction l as [|a l IH]; intros e N; cbn [least].
  - split; [now left|]. intros x [<-|[]]. apply fgt_irr.
  - set (e' := (if fgt (fst (fst e)) (fst (fst a)) then a else e) : entry). change (if fgt (fst (fst e)) (fst (fst a)) then a else e) with e'.
    assert (N' : forall x, In x (e' :: l) -> fst (fst x) <> NaN).
    { intros x [<-|I]; [unfold e'; destruct (fgt _ _); apply N; [right; now left|now left]|apply N; right; now right]. }
    destruct (IH e' N') as [I H]. split.
    + destruct I as [I|I]; [|right; now right]. rewrite <- I. unfold e'. destruct (fgt _ _); [right; now left|now left].
    + assert (HE : fgt (fst (fst (least e' l))) (fst (fst e')) = false) by (apply H; now left). unfold e' in HE at 2.
      intros x [<-|[<-|Ix]]; [| |apply H; now right].
      * destruct (fgt (fst (fst e)) (fst (fst a))) eqn:G; [|exact HE]. eapply nle_trans; [exact HE|apply fgt_asym; exact G|apply N; right; now left].
      * destruct (fgt (fst (fst e)) (fst (fst a))) eqn:G; [exact HE|]. eapply nle_trans; [exact HE|exact G|apply N; now left].
Qed.

Section Doubling.
Variable digit_value : Z -> option Z.
Variable sample : Z -> nat -> sampler.
Variable train : Z -> nat -> dict -> trial_result.
Variable tune_range : list (pystr * dist).
Variables n_trials_initial n_trials_following : nat.
Variable neighborhood_scale : Q.
Variable suggest_function_initial : option suggest_function.
Variable n_components : pystr.
Notation search := (search digit_value sample train tune_range n_trials_initial n_trials_following neighborhood_scale suggest_function_initial n_components).
Notation neighborhood := (neighborhood neighborhood_scale).

Definition suggest_for (prev : option dict) : option suggest_function :=
  match prev with None => suggest_function_initial | Some p => Some (neighborhood p) end.
Definition trials_for (prev : option dict) : nat := match prev with None => n_trials_initial | Some _ => n_trials_following end.
Definition tune_at (dimension : Z) (prev : option dict) : study * outcome dict :=
  tune digit_value (sample dimension) (train dimension) true false (suggest_for prev) tune_range [(n_components, VInt dimension)] (trials_for prev) [].

(** The entries follow from each other. *)
Fixpoint chain (dimension : Z) (prev : option dict) (l : list entry) : Prop :=
  match l with
  | [] => True
  | (v, d, s) :: l' => exists bp t, tune_at dimension prev = (s, Ok bp) /\ best_trial s = Ok t /\ v = value_min s /\
      d = dict_set bp n_components (VInt dimension) /\ chain (dimension * 2) (Some (t_params t)) l'
  end.

Lemma search_chain maximal fuel : forall dimension prev results out, (1 <= dimension)%Z ->
  search fuel dimension maximal prev results = Ok out ->
  exists new, out = results ++ new /\ chain dimension prev new /\
    (forall i, i < length new -> (dimension * 2 ^ Z.of_nat i <= maximal)%Z) /\ (maximal < dimension * 2 ^ Z.of_nat (length new))%Z.
Proof.
  induction fuel as [|fuel IH]; intros dimension prev results out Hd; cbn [Tune_Model.search];
    (destruct (Z.ltb_spec maximal dimension) as [Hm|Hm]; [intros [= <-]; exists []; rewrite app_nil_r; repeat split; auto; cbn; intros; lia|]); [discriminate|].
  fold (suggest_for prev). fold (trials_for prev). fold (tune_at dimension prev).
  destruct (tune_at dimension prev) as [s [bp| | |]] eqn:ET; try discriminate. destruct (best_trial s) as [t| | |] eqn:EB; try discriminate. cbn [obind].
  intros H. apply IH in H; [|lia]. destruct H as (new & -> & C & B1 & B2). exists ((value_min s, dict_set bp n_components (VInt dimension), s) :: new).
  split; [now rewrite <- app_assoc|]. split; [cbn; exists bp, t; auto|]. cbn [length]. split.
  - intros [|i] Hi; [cbn; lia|]. specialize (B1 i ltac:(lia)). rewrite Nat2Z.inj_succ, Z.pow_succ_r by lia. lia.
  - rewrite Nat2Z.inj_succ, Z.pow_succ_r by lia. lia.
Qed.

Lemma chain_nth l : forall dimension prev i e, chain dimension prev l -> nth_error l i = Some e -> exists prev' bp t,
  tune_at (dimension * 2 ^ Z.of_nat i) prev' = (snd e, Ok bp) /\ best_trial (snd e) = Ok t /\ fst (fst e) = value_min (snd e) /\
  snd (fst e) = dict_set bp n_components (VInt (dimension * 2 ^ Z.of_nat i)) /\ (i = 0 -> prev' = prev) /\
  (forall j, i = S j -> exists e' t', nth_error l j = Some e' /\ best_trial (snd e') = Ok t' /\ prev' = Some (t_params t')).
Proof.
  induction l as [|[[v d] s] l IH]; intros dimension prev [|i] e C E; try discriminate; cbn [nth_error] in E.
  - injection E as <-. destruct C as (bp & t & H1 & H2 & H3 & H4 & _). exists prev, bp, t. cbn [fst snd]. rewrite Z.mul_1_r. repeat split; auto. discriminate.
  - destruct C as (bp & t & H1 & H2 & H3 & H4 & C). destruct (IH _ _ _ _ C E) as (prev' & bp' & t' & G1 & G2 & G3 & G4 & G5 & G6).
    replace (dimension * 2 ^ Z.of_nat (S i))%Z with (dimension * 2 * 2 ^ Z.of_nat i)%Z by (rewrite Nat2Z.inj_succ, Z.pow_succ_r by lia; ring).
    exists prev', bp', t'. repeat (split; [assumption|]). split; [discriminate|]. intros j [= <-]. destruct i as [|i].
    + exists (v, d, s), t. repeat split; auto.
    + cbn [nth_error]. apply G6. reflexivity.
Qed.

(** ** The neighbourhood *)
Lemma neighborhood_in p ask : dict_ok p -> dict_ok (fst (neighborhood p ask)) /\ snd (neighborhood p ask) = fst (neighborhood p ask) /\
  forall k x, In (k, x) (fst (neighborhood p ask)) <->
    exists q, In (k, VFloat q) p /\ x = ask k (DFloat (q / neighborhood_scale) (q * neighborhood_scale) true).
Proof.
  intros ND. cbn [Tune_Model.neighborhood fst snd].
  assert (G : forall rest done d, NoDup (keys (done ++ rest)) -> dict_ok d ->
    (forall k x, In (k, x) d <-> exists q, In (k, VFloat q) done /\ x = ask k (DFloat (q / neighborhood_scale) (q * neighborhood_scale) true)) ->
    let d' := fold_left (fun d kv => match snd kv with
               | VFloat q => dict_set d (fst kv) (ask (fst kv) (DFloat (q / neighborhood_scale) (q * neighborhood_scale) true)) | _ => d end) rest d in
    dict_ok d' /\ forall k x, In (k, x) d' <-> exists q, In (k, VFloat q) (done ++ rest) /\ x = ask k (DFloat (q / neighborhood_scale) (q * neighborhood_scale) true)).
  { induction rest as [|[a y] rest IH]; intros done d N OK H; cbn [fold_left].
    - rewrite app_nil_r. auto.
    - replace (done ++ (a, y) :: rest) with ((done ++ [(a, y)]) ++ rest) in * by now rewrite <- app_assoc. apply IH; [exact N| |]; cbn [fst snd].
      + destruct y; auto using set_ok.
      + assert (SKIP : (forall q, y <> VFloat q) -> forall k x, In (k, x) d <-> exists q, In (k, VFloat q) (done ++ [(a, y)]) /\ x = ask k (DFloat (q / neighborhood_scale) (q * neighborhood_scale) true)).
        { intros Ny k x. rewrite H. split; intros (q & I & X); exists q; (split; [|exact X]); [apply in_or_app; now left|].
          apply in_app_or in I. destruct I as [I|[I|[]]]; [exact I|]. injection I as _ I. now apply Ny in I. }
        destruct y as [z|q|z|z|]; try (apply SKIP; discriminate). intros k x. rewrite set_in by exact OK. rewrite H. split.
        * intros [[-> ->]|[Nk (q' & I & X)]]; [exists q; split; [apply in_or_app; right; now left|reflexivity]|exists q'; split; [apply in_or_app; now left|exact X]].
        * intros (q' & I & X). apply in_app_or in I. destruct I as [I|[[= <- <-]|[]]]; [|now left].
          right. split; [|eauto]. intros ->. unfold keys in N. rewrite <- app_assoc, map_app in N. cbn in N. apply NoDup_remove_2 in N. apply N.
          apply in_or_app. left. apply (in_map fst) in I. exact I. }
  destruct (G p [] []) as [G1 G2]; [exact ND|constructor|intros k x; split; [intros []|intros (q & [] & _)]|]. auto.
Qed.

(** ** Suggestions are dictionaries *)
Hypothesis initial_ok : forall f ask, suggest_function_initial = Some f -> dict_ok (fst (f ask)) /\ dict_ok (snd (f ask)).
Lemma default_ok range fixed ask : dict_ok (fst (default_suggest range fixed ask)) /\ dict_ok (snd (default_suggest range fixed ask)).
Proof.
  assert (G : forall l d, dict_ok d -> dict_ok (fold_left (fun d r => if has_key fixed (fst r) then d else dict_set d (fst r) (ask (fst r) (snd r))) l d)).
  { induction l as [|r l IH]; intros d H; [exact H|]. cbn. apply IH. destruct (has_key fixed (fst r)); auto using set_ok. }
  split; apply G; constructor.
Qed.
Definition prev_ok (prev : option dict) : Prop := match prev with Some p => dict_ok p | None => True end.
Lemma used_ok prev fixed ask : prev_ok prev ->
  dict_ok (fst (used_suggest (suggest_for prev) tune_range fixed ask)) /\ dict_ok (snd (used_suggest (suggest_for prev) tune_range fixed ask)).
Proof.
  destruct prev as [p|]; cbn [suggest_for used_suggest prev_ok]; intros H.
  - destruct (neighborhood_in p ask H) as (H1 & H2 & _). rewrite H2. auto.
  - destruct suggest_function_initial as [f|] eqn:E; cbn [used_suggest]; [now apply initial_ok|apply default_ok].
Qed.
Lemma tune_at_trials dimension prev s r : tune_at dimension prev = (s, r) -> forall t, In t s -> exists n,
  t = trial_of (sample dimension) (train dimension) (used_suggest (suggest_for prev) tune_range [(n_components, VInt dimension)]) [(n_components, VInt dimension)] n.
Proof.
  intros E t I. destruct (tune_trials digit_value (sample dimension) (train dimension) true false (suggest_for prev) tune_range [(n_components, VInt dimension)] (trials_for prev) [] (or_introl eq_refl)) as (k & _ & Et).
  fold (tune_at dimension prev) in Et. rewrite E in Et. cbn [fst app length] in Et. rewrite Et in I. apply in_map_iff in I. destruct I as (n & <- & _). eauto.
Qed.
Lemma one_ok k v : dict_ok [(k, v)].
Proof. constructor; [intros []|constructor]. Qed.
Lemma tune_at_params_ok dimension prev s r : prev_ok prev -> tune_at dimension prev = (s, r) -> forall t, In t s ->
  dict_ok (t_params t) /\ In (n_components, VInt dimension) (t_used t).
Proof.
  intros P E t I. destruct (tune_at_trials _ _ _ _ E t I) as (n & ->).
  destruct (used_ok prev [(n_components, VInt dimension)] (sample dimension n) P) as [U1 U2].
  destruct (fixed_wins (sample dimension) (train dimension) _ [(n_components, VInt dimension)] n (one_ok _ _) U1) as (_ & F & _ & Pm & _).
  cbn zeta in *. rewrite Pm. split; [exact U2|]. apply F. now left.
Qed.
Lemma study_nil : study_ok [].
Proof. intros ? ? []. Qed.
Lemma tune_at_ok dimension prev s r : tune_at dimension prev = (s, r) -> study_ok s.
Proof. intros E. pose proof (tune_ok digit_value (sample dimension) (train dimension) true false (suggest_for prev) tune_range [(n_components, VInt dimension)] (trials_for prev) [] study_nil) as H.
  fold (tune_at dimension prev) in H. now rewrite E in H. Qed.
Lemma best_in s t : study_ok s -> best_trial s = Ok t -> In t s.
Proof. intros OK E. destruct (best_trial_spec s OK) as [H _]. destruct (H t E) as (v & b & a & -> & _). apply in_or_app. right. now left. Qed.

Lemma chain_ok l : forall dimension prev, prev_ok prev -> chain dimension prev l -> forall i e, nth_error l i = Some e -> exists prev' bp t,
  prev_ok prev' /\ tune_at (dimension * 2 ^ Z.of_nat i) prev' = (snd e, Ok bp) /\ best_trial (snd e) = Ok t /\ fst (fst e) = value_min (snd e) /\
  snd (fst e) = dict_set bp n_components (VInt (dimension * 2 ^ Z.of_nat i)) /\
  (forall j, i = S j -> exists e' t', nth_error l j = Some e' /\ best_trial (snd e') = Ok t' /\ dict_ok (t_params t') /\ prev' = Some (t_params t')).
Proof.
  intros dimension prev P C i. induction i as [|i IH]; intros e E.
  - destruct (chain_nth _ _ _ _ _ C E) as (prev' & bp & t & G1 & G2 & G3 & G4 & G5 & G6). rewrite (G5 eq_refl) in G1. exists prev, bp, t.
    repeat (split; [assumption|]). discriminate.
  - destruct (chain_nth _ _ _ _ _ C E) as (prev' & bp & t & G1 & G2 & G3 & G4 & G5 & G6). destruct (G6 i eq_refl) as (e' & t' & E' & B' & ->).
    destruct (IH e' E') as (prev'' & bp'' & t'' & P'' & T'' & _).
    assert (D : dict_ok (t_params t')). { eapply tune_at_params_ok; [exact P''|exact T''|]. apply best_in; [eapply tune_at_ok; exact T''|exact B']. }
    exists (Some (t_params t')), bp, t. split; [exact D|]. repeat (split; [assumption|]). intros j [= <-]. exists e', t'. auto.
Qed.

Notation doubling := (tune_doubling_dimension digit_value sample train tune_range n_trials_initial n_trials_following neighborhood_scale suggest_function_initial n_components).

Lemma doubling_results fuel initial maximal bp studies : (1 <= initial)%Z -> doubling fuel initial maximal = Ok (bp, studies) ->
  exists l, studies = map snd l /\ l <> [] /\ chain initial None l /\ (exists e l', l = e :: l' /\ bp = snd (fst (least e l'))) /\
  (forall i, i < length l -> (initial * 2 ^ Z.of_nat i <= maximal)%Z) /\ (maximal < initial * 2 ^ Z.of_nat (length l))%Z.
Proof.
  intros Hi. unfold tune_doubling_dimension. destruct (search fuel initial maximal None []) as [res| | |] eqn:E; try discriminate. cbn [obind].
  destruct (search_chain _ _ _ _ _ _ Hi E) as (new & -> & C & B1 & B2). cbn [app]. destruct new as [|e l]; [discriminate|].
  destruct (has_equal _); [discriminate|]. intros [= <- <-]. exists (e :: l). split; [reflexivity|]. split; [discriminate|]. split; [exact C|]. split; [eauto|]. auto.
Qed.

Lemma doubling_spec fuel initial maximal bp studies : (1 <= initial)%Z -> doubling fuel initial maximal = Ok (bp, studies) ->
  (forall s, In s studies -> fair_pruning s) ->
  let m := length studies in
  1 <= m /\ (initial * 2 ^ (Z.of_nat m - 1) <= maximal < initial * 2 ^ Z.of_nat m)%Z /\
  (forall i t, i < m -> In t (nth i studies []) -> In (n_components, VInt (initial * 2 ^ Z.of_nat i)) (t_used t)) /\
  exists i t v, i < m /\ In t (nth i studies []) /\ t_state t = Complete v /\
    (forall j t' v', j < m -> In t' (nth j studies []) -> t_state t' = Complete v' -> fgt v v' = false) /\
    (forall k x, In (k, x) bp <-> (k = n_components /\ x = VInt (initial * 2 ^ Z.of_nat i)) \/
       (k <> n_components /\ (In (k, x) (t_params t) \/ (In (k, x) (t_attrs t) /\ is_valid_param_name digit_value k = true)))).
Proof.
  intros Hi E FP. destruct (doubling_results _ _ _ _ _ Hi E) as (l & -> & NE & C & (e0 & l' & El & Ebp) & B1 & B2). cbn zeta.
  rewrite map_length. assert (L1 : 1 <= length l) by (destruct l; [contradiction|cbn; lia]).
  assert (NTH : forall i, i < length l -> exists e, nth_error l i = Some e /\ nth i (map snd l) [] = snd e).
  { intros i Hlt. destruct (nth_error l i) as [e|] eqn:En; [|apply nth_error_None in En; lia]. exists e. split; [reflexivity|].
    apply nth_error_nth. now rewrite nth_error_map, En. }
  split; [exact L1|]. split.
  { split; [|exact B2]. specialize (B1 (length l - 1) ltac:(lia)). now replace (Z.of_nat (length l) - 1)%Z with (Z.of_nat (length l - 1)) by lia. }
  split.
  { intros i t Hlt I. destruct (NTH i Hlt) as (e & En & Es). rewrite Es in I. destruct (chain_ok l initial None Logic.I C i e En) as (prev' & b & tb & P & T & _).
    eapply tune_at_params_ok; eassumption. }
  (* values *)
  assert (VAL : forall i e, nth_error l i = Some e -> exists t v bp', In t (snd e) /\ least_complete (snd e) t v /\ fst (fst e) <> NaN /\ v <> NaN /\
     fgt (fst (fst e)) v = false /\ fgt v (fst (fst e)) = false /\ snd (fst e) = dict_set bp' n_components (VInt (initial * 2 ^ Z.of_nat i)) /\ dict_ok bp' /\
     (forall k x, In (k, x) bp' <-> In (k, x) (t_params t) \/ (In (k, x) (t_attrs t) /\ is_valid_param_name digit_value k = true))).
  { intros i e En. destruct (chain_ok l initial None Logic.I C i e En) as (prev' & b & tb & P & T & BT & V & D & _).
    pose proof (tune_at_ok _ _ _ _ T) as OK. pose proof (tune_best digit_value (sample (initial * 2 ^ Z.of_nat i)) (train (initial * 2 ^ Z.of_nat i)) true false (suggest_for prev') tune_range [(n_components, VInt (initial * 2 ^ Z.of_nat i))] (trials_for prev') [] b study_nil) as TB.
    fold (tune_at (initial * 2 ^ Z.of_nat i) prev') in TB. cbn zeta in TB. rewrite T in TB. cbn [fst snd] in TB. destruct (TB eq_refl) as (t & v & LC & BT' & MG & PB).
    assert (t = tb) by congruence. subst tb.
    assert (IN : In t (snd e)) by (apply best_in; assumption).
    destruct (value_min_best (snd e) t v OK) as (V1 & V2 & V3 & V4); [apply FP; apply in_map; eapply nth_error_In; exact En|exact LC|].
    exists t, v, b. rewrite V. repeat (split; [assumption|]). split; [|exact PB].
    eapply merge_ok; [eapply tune_at_params_ok; eassumption| |exact MG].
    destruct (tune_at_trials _ _ _ _ T t IN) as (n & Et). rewrite Et.
    assert (AT : dict_ok (t_attrs (trial_of (sample (initial * 2 ^ Z.of_nat i)) (train (initial * 2 ^ Z.of_nat i)) (used_suggest (suggest_for prev') tune_range [(n_components, VInt (initial * 2 ^ Z.of_nat i))]) [(n_components, VInt (initial * 2 ^ Z.of_nat i))] n))).
    { unfold trial_of, run_trial. destruct (used_suggest _ _ _ _) as [d a]. destruct (train _ n _) as [[] ?| |]; cbn [fst t_attrs]; try constructor; apply update_ok; constructor. }
    revert AT. generalize (t_attrs (trial_of (sample (initial * 2 ^ Z.of_nat i)) (train (initial * 2 ^ Z.of_nat i)) (used_suggest (suggest_for prev') tune_range [(n_components, VInt (initial * 2 ^ Z.of_nat i))]) [(n_components, VInt (initial * 2 ^ Z.of_nat i))] n)).
    unfold dict_ok, keys. induction d as [|[a y] d IHd]; [auto|]. cbn. intros H. inversion H as [|? ? Na Nd]; subst. destruct (is_valid_param_name digit_value a); [|auto].
    cbn. constructor; [|auto]. intros Ia. apply Na. apply in_map_iff in Ia. destruct Ia as (z & <- & Iz). apply filter_In in Iz. destruct Iz. now apply in_map. }
  assert (NN : forall x, In x l -> fst (fst x) <> NaN) by (intros x I; apply In_nth_error in I; destruct I as (i & En); destruct (VAL i x En) as (? & ? & ? & _ & _ & H & _); exact H).
  destruct (least_spec l' e0) as [LI LL]; [intros x Ix; apply NN; rewrite El; exact Ix|].
  assert (LI' : In (least e0 l') l) by (rewrite El; exact LI). assert (LL' : forall x, In x l -> fgt (fst (fst (least e0 l'))) (fst (fst x)) = false) by (intros x Ix; apply LL; rewrite El in Ix; exact Ix).
  clear LI LL. rename LI' into LI. rename LL' into LL.
  apply In_nth_error in LI. destruct LI as (i & En). destruct (VAL i _ En) as (t & v & bp' & IN & LC & V1 & V2 & V3 & V4 & D & OKb & PB).
  assert (Hlt : i < length l) by (apply nth_error_Some; intros Z0; pose proof (eq_trans (eq_sym Z0) En); discriminate).
  exists i, t, v. split; [exact Hlt|]. destruct (NTH i Hlt) as (e1 & En1 & Es). pose proof (eq_trans (eq_sym En) En1) as EQ. injection EQ as EQ. subst e1. rewrite Es. split; [exact IN|]. split; [destruct LC as (? & ? & _ & S & _); exact S|].
  split.
  - intros j t' v' Hj I' S'. destruct (NTH j Hj) as (e2 & En2 & Es2). rewrite Es2 in I'. destruct (VAL j _ En2) as (t2 & v2 & bp2 & IN2 & LC2 & W1 & W2 & W3 & W4 & _).
    eapply nle_trans; [exact V4| |exact V1]. eapply nle_trans; [apply LL; eapply nth_error_In; exact En2| |exact W1].
    eapply nle_trans; [exact W3| |exact W2]. destruct LC2 as (? & ? & _ & _ & L & _). exact (L t' v' I' S').
  - intros k x. rewrite Ebp, D, set_in by exact OKb. rewrite PB. reflexivity.
Qed.

Lemma doubling_neighborhood fuel initial maximal bp studies i t : (1 <= initial)%Z -> doubling fuel initial maximal = Ok (bp, studies) ->
  S i < length studies -> In t (nth (S i) studies []) ->
  exists best v, least_complete (nth i studies []) best v /\
    forall k x, In (k, x) (t_params t) <-> exists q, In (k, VFloat q) (t_params best) /\
      x = sample (initial * 2 ^ Z.of_nat (S i)) (t_number t) k (DFloat (q / neighborhood_scale) (q * neighborhood_scale) true).
Proof.
  intros Hi E Hlt I. destruct (doubling_results _ _ _ _ _ Hi E) as (l & -> & NE & C & _). rewrite map_length in Hlt.
  destruct (nth_error l (S i)) as [e|] eqn:En; [|apply nth_error_None in En; lia].
  rewrite (nth_error_nth (map snd l) (S i) [] (x := snd e)) in I by now rewrite nth_error_map, En.
  destruct (chain_ok l initial None Logic.I C (S i) e En) as (prev' & b & tb & P & T & _ & _ & _ & PR). destruct (PR i eq_refl) as (e' & t' & E' & B' & D & ->).
  destruct (chain_ok l initial None Logic.I C i e' E') as (prev'' & b'' & tb'' & _ & T'' & _).
  destruct (proj1 (best_trial_spec _ (tune_at_ok _ _ _ _ T'')) t' B') as (v & LC). exists t', v.
  rewrite (nth_error_nth (map snd l) i [] (x := snd e')) by (rewrite nth_error_map; exact (f_equal (option_map snd) E')). split; [exact LC|].
  destruct (tune_at_trials _ _ _ _ T t I) as (n & ->). intros k x.
  destruct (trial_fields (sample (initial * 2 ^ Z.of_nat (S i))) (train (initial * 2 ^ Z.of_nat (S i))) (used_suggest (suggest_for (Some (t_params t'))) tune_range [(n_components, VInt (initial * 2 ^ Z.of_nat (S i)))]) [(n_components, VInt (initial * 2 ^ Z.of_nat (S i)))] n) as (N & Pm & _).
  cbn zeta in *. rewrite N, Pm. cbn [suggest_for used_suggest]. destruct (neighborhood_in (t_params t') (sample (initial * 2 ^ Z.of_nat (S i)) n) D) as (_ & -> & H). apply H.
Qed.

(** ** Termination *)
Lemma tune_settles dv smp tr data ds suggest range fixed n s : let r := snd (tune dv smp tr data ds suggest range fixed n s) in
  (exists b, r = Ok b) \/ exists e, r = Fail e.
Proof.
  unfold tune. destruct (negb data && negb ds); [cbn; eauto|]. destruct (optimize _ _ _ _ _ _) as [s' [e|]]; cbn [snd]; [eauto|].
  unfold best_params, best_trial. destruct (best_of s' None) as [[t v]|]; cbn [obind]; [|eauto]. unfold dict_merge. destruct (existsb _ _); eauto.
Qed.
Lemma search_settles maximal fuel : forall dimension prev results, (1 <= dimension)%Z -> (maximal - dimension < Z.of_nat fuel)%Z ->
  (exists out, search fuel dimension maximal prev results = Ok out) \/ exists e, search fuel dimension maximal prev results = Fail e.
Proof.
  induction fuel as [|fuel IH]; intros dimension prev results Hd Hf; cbn [Tune_Model.search]; (destruct (Z.ltb_spec maximal dimension) as [Hm|Hm]; [eauto|]); [lia|].
  fold (suggest_for prev). fold (trials_for prev). fold (tune_at dimension prev). pose proof (tune_settles digit_value (sample dimension) (train dimension) true false (suggest_for prev) tune_range [(n_components, VInt dimension)] (trials_for prev) []) as TS.
  fold (tune_at dimension prev) in TS. cbn zeta in TS. destruct (tune_at dimension prev) as [s r]. cbn [snd] in TS. destruct TS as [(b & ->)|(e & ->)]; [|eauto].
  unfold best_trial. destruct (best_of s None) as [[t v]|]; cbn [obind]; [|eauto]. apply IH; lia.
Qed.
Lemma search_more maximal fuel more : forall dimension prev results, search fuel dimension maximal prev results <> Pending ->
  search (fuel + more) dimension maximal prev results = search fuel dimension maximal prev results.
Proof.
  induction fuel as [|fuel IH]; intros dimension prev results H.
  - cbn [Tune_Model.search] in H. destruct (maximal <? dimension)%Z eqn:Hm; [|contradiction]. cbn [Nat.add]. destruct more; cbn [Tune_Model.search]; now rewrite Hm.
  - change (S fuel + more) with (S (fuel + more)). cbn [Tune_Model.search] in *. destruct (maximal <? dimension)%Z; [reflexivity|].
    destruct (tune _ _ _ _ _ _ _ _ _ _) as [s [bp| | |]]; try reflexivity. destruct (best_trial s) as [t| | |]; try reflexivity. cbn [obind] in *. now apply IH.
Qed.
Lemma doubling_settles fuel initial maximal : (1 <= initial)%Z -> Z.to_nat maximal <= fuel ->
  doubling fuel initial maximal <> Pending /\ doubling fuel initial maximal = doubling (Z.to_nat maximal) initial maximal.
Proof.
  intros Hi Hf. assert (S : search (Z.to_nat maximal) initial maximal None [] <> Pending).
  { destruct (search_settles maximal (Z.to_nat maximal) initial None []) as [(out & ->)|(e & ->)]; try discriminate; lia. }
  replace fuel with (Z.to_nat maximal + (fuel - Z.to_nat maximal)) by lia. unfold tune_doubling_dimension. rewrite (search_more _ _ _ _ _ _ S).
  split; [|reflexivity]. destruct (search (Z.to_nat maximal) initial maximal None []) as [[|e l]| | |]; cbn [obind]; try discriminate; try contradiction.
  destruct (has_equal _); discriminate.
Qed.

(** A dimension that is not positive never grows past the bound. *)
Lemma search_forever maximal fuel : forall dimension prev results, (dimension <= 0)%Z -> (dimension <= maximal)%Z ->
  search fuel dimension maximal prev results = Pending \/ exists e, search fuel dimension maximal prev results = Fail e.
Proof.
  induction fuel as [|fuel IH]; intros dimension prev results Hd Hm; cbn [Tune_Model.search]; (destruct (Z.ltb_spec maximal dimension) as [Hm'|_]; [lia|]); [now left|].
  fold (suggest_for prev). fold (trials_for prev). fold (tune_at dimension prev). pose proof (tune_settles digit_value (sample dimension) (train dimension) true false (suggest_for prev) tune_range [(n_components, VInt dimension)] (trials_for prev) []) as TS.
  fold (tune_at dimension prev) in TS. cbn zeta in TS. destruct (tune_at dimension prev) as [s r]. cbn [snd] in TS. destruct TS as [(b & ->)|(e & ->)]; [|eauto].
  unfold best_trial. destruct (best_of s None) as [[t v]|]; cbn [obind]; [|eauto]. apply IH; lia.
Qed.
End Doubling.
