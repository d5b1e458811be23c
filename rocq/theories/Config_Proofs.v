(** Recommender configurations. *)
From Coq Require Import String.
From Coq Require Import List.
From Verif Require Import Base PyStr_Model PyStr_Spec PyStr_Proofs EarlyStop_Model Tune_Model Tune_Spec Tune_Proofs Config_Model Config_Spec.
From Coq Require Import QArith.
Local Open Scope Z_scope.

(** ** Tables *)
Lemma known_spec {A} (l : list (pystr * A)) k : known l k = true <-> In k (map fst l).
Proof.
  unfold known. rewrite existsb_exists, in_map_iff. split.
  - intros (p & I & E). destruct (pystr_eqb_spec (fst p) k); [|discriminate]. eauto.
  - intros (p & E & I). exists p. split; [exact I|]. destruct (pystr_eqb_spec (fst p) k); [reflexivity|contradiction].
Qed.
Lemma all_known {A} (l : list (pystr * A)) (kw : dict) :
  forallb (fun kv => known l (fst kv)) kw = true <-> forall k, In k (keys kw) -> In k (map fst l).
Proof.
  rewrite forallb_forall. split.
  - intros H k I. apply in_map_iff in I. destruct I as (p & <- & I). now apply known_spec, H.
  - intros H p I. apply known_spec, H. now apply in_map.
Qed.
Definition distinct (l : list pystr) : bool := if list_eq_dec (list_eq_dec Z.eq_dec) (nodup (list_eq_dec Z.eq_dec) l) l then true else false.
Lemma distinct_spec l : distinct l = true -> NoDup l.
Proof. unfold distinct. destruct list_eq_dec as [E|]; [|discriminate]. intros _. rewrite <- E. apply NoDup_nodup. Qed.
Lemma fields_distinct c : NoDup (map fst (fields c)).
Proof. apply distinct_spec. destruct c; vm_compute; reflexivity. Qed.
Lemma constructor_distinct r : NoDup (map fst (constructor r)).
Proof. apply distinct_spec. destruct r; vm_compute; reflexivity. Qed.
Lemma ranges_distinct r : NoDup (map fst (default_tune_range r)).
Proof. apply distinct_spec. destruct r; vm_compute; reflexivity. Qed.

Lemma nodup_assoc {A} (l : list (pystr * A)) k a b : NoDup (map fst l) -> In (k, a) l -> In (k, b) l -> a = b.
Proof.
  induction l as [|[k' c] l IH]; cbn; [intros _ []|]. intros N. inversion N as [|? ? N1 N2]; subst.
  intros [E|I] [F|J]; [congruence| | |auto]; exfalso; [injection E as -> ->|injection F as -> ->]; apply N1; [apply (in_map fst) in J; exact J|apply (in_map fst) in I; exact I].
Qed.
Lemma get_in (d : dict) k v : dict_ok d -> (dict_get d k = Some v <-> In (k, v) d).
Proof.
  intros N. split; [apply dict_get_in|]. intros I. destruct (dict_get d k) as [w|] eqn:E.
  - apply dict_get_in in E. f_equal. eapply nodup_assoc; eauto.
  - apply dict_get_none in E. exfalso. apply E. apply (in_map fst) in I. exact I.
Qed.

(** ** Values *)
Lemma same_refl v : same_value v v.
Proof. unfold same_value. destruct (number v); reflexivity. Qed.
Lemma same_sym v w : same_value v w -> same_value w v.
Proof. unfold same_value. destruct (number v), (number w); auto. intros E. now symmetry. Qed.
Definition sameb (v w : pyval) : bool :=
  match number v, number w, v, w with
  | Some a, Some b, _, _ => Qeq_bool a b
  | None, None, VNone, VNone => true
  | None, None, VStr s, VStr t => pystr_eqb s t
  | _, _, _, _ => false
  end.
Lemma sameb_spec v w : sameb v w = true -> same_value v w.
Proof.
  unfold sameb, same_value. destruct v as [| |s|[]|], w as [| |s'|[]|]; cbn [number]; try discriminate; try reflexivity;
    try apply Qeq_bool_iff. destruct (pystr_eqb_spec s s'); [congruence|discriminate].
Qed.

Section Coerce.
Variable int_of_str : pystr -> option Z.
Variable float_of_str : pystr -> option Q.
Variable bool_of_str : pystr -> option bool.
Notation coerce := (coerce int_of_str float_of_str bool_of_str).

Lemma integral q : Zpos (Qden (Qred q)) = 1 -> (q == inject_Z (Qnum (Qred q)))%Q.
Proof.
  intros E. rewrite <- (Qred_correct q) at 1. destruct (Qred q) as [n d]. cbn [Qnum Qden] in *. injection E as ->. reflexivity.
Qed.
Lemma red_int z : Qred (inject_Z z) = inject_Z z.
Proof.
  unfold Qred, inject_Z. pose proof (Z.ggcd_gcd z 1) as G. pose proof (Z.ggcd_correct_divisors z 1) as D.
  destruct (Z.ggcd z 1) as [g [a b]]. cbn in G. rewrite Z.gcd_1_r in G. subst g. destruct D as [-> D]. rewrite Z.mul_1_l in *. subst b. reflexivity.
Qed.

Lemma coerce_same t : forall v w, (forall s, v = VStr s -> textual t) -> coerce t v = Some w -> same_value v w.
Proof.
  induction t; intros v w T E; cbn [Config_Model.coerce] in E.
  - destruct v as [z|q|s|b|]; [| |destruct (T _ eq_refl)| |discriminate].
    + injection E as <-. apply same_refl.
    + destruct (Zpos (Qden (Qred q)) =? 1) eqn:D; [|discriminate]. injection E as <-. apply integral. now apply Z.eqb_eq.
    + injection E as <-. destruct b; reflexivity.
  - destruct v as [z|q|s|b|]; [| |destruct (T _ eq_refl)| |discriminate]; injection E as <-; [reflexivity|reflexivity|destruct b; reflexivity].
  - destruct v as [z|q|s|b|]; [| |destruct (T _ eq_refl)| |discriminate].
    + destruct (Z.eqb_spec z 0); [injection E as <-; subst; reflexivity|]. destruct (Z.eqb_spec z 1); [injection E as <-; subst; reflexivity|discriminate].
    + destruct (Qeq_bool q 0) eqn:E0; [injection E as <-; now apply Qeq_bool_iff|]. destruct (Qeq_bool q 1) eqn:E1; [injection E as <-; now apply Qeq_bool_iff|discriminate].
    + injection E as <-. apply same_refl.
  - destruct v; try discriminate. injection E as <-. apply same_refl.
  - destruct v; try discriminate. destruct existsb; [|discriminate]. injection E as <-. apply same_refl.
  - destruct v; try (eapply IHt; [|exact E]; exact T). injection E as <-. apply same_refl.
Qed.

Lemma coerce_fits t : forall v, (forall s, v = VStr s -> textual t) -> ((exists w, coerce t v = Some w) <-> fits t v).
Proof.
  induction t; intros v T; cbn [Config_Model.coerce fits].
  - destruct v as [z|q|s|b|]; [| |destruct (T _ eq_refl)| |].
    + split; [intros _; exists z, (inject_Z z); split; reflexivity|eauto].
    + split.
      * intros [w E]. destruct (Zpos (Qden (Qred q)) =? 1) eqn:D; [|discriminate]. apply Z.eqb_eq in D. apply integral in D. exists (Qnum (Qred q)), q. split; [reflexivity|exact D].
      * intros (z & p & E & F). injection E as <-. apply Qred_complete in F. rewrite red_int in F. rewrite F. cbn. eauto.
    + split; [intros _; exists (if b then 1 else 0); destruct b; eexists; split; reflexivity|eauto].
    + split; [intros [w E]; discriminate|intros (z & q & E & _); discriminate].
  - destruct v as [z|q|s|b|]; [| |destruct (T _ eq_refl)| |]; (split; [intros [w E]|intros H; eauto]); try discriminate.
    + destruct b; discriminate.
    + now destruct H.
  - destruct v as [z|q|s|b|]; [| |destruct (T _ eq_refl)| |].
    + split.
      * intros [w E]. exists (inject_Z z). split; [reflexivity|]. destruct (Z.eqb_spec z 0); [subst; left; reflexivity|].
        destruct (Z.eqb_spec z 1); [subst; right; reflexivity|discriminate].
      * intros (q & E & [F|F]); injection E as <-.
        -- assert (z = 0) as -> by (unfold Qeq in F; cbn in F; lia). cbn. eauto.
        -- assert (z = 1) as -> by (unfold Qeq in F; cbn in F; lia). cbn. eauto.
    + split.
      * intros [w E]. exists q. split; [reflexivity|]. destruct (Qeq_bool q 0) eqn:E0; [left; now apply Qeq_bool_iff|].
        destruct (Qeq_bool q 1) eqn:E1; [right; now apply Qeq_bool_iff|discriminate].
      * intros (p & E & [F|F]); injection E as <-; apply Qeq_bool_iff in F; rewrite F; destruct (Qeq_bool q 0); eauto.
    + split; [intros _; destruct b; eexists; (split; [reflexivity|]); [right|left]; reflexivity|eauto].
    + split; [intros [w E]; discriminate|intros (q & E & _); discriminate].
  - destruct v; split; try (intros [w E]; discriminate); try (intros [s' E]; discriminate); eauto.
  - destruct v; split; try (intros [w E]; discriminate); try (intros (s' & E & _); discriminate).
    + intros [w E]. destruct existsb eqn:X; [|discriminate]. apply existsb_exists in X. destruct X as (x & I & Ex).
      destruct (pystr_eqb_spec s x); [subst; eauto|discriminate].
    + intros (s' & E & I). injection E as <-. replace (existsb (pystr_eqb s) l) with true; [eauto|]. symmetry. apply existsb_exists.
      exists s. split; [exact I|]. destruct (pystr_eqb_spec s s); [reflexivity|contradiction].
  - destruct v; try (rewrite IHt by exact T; split; [auto|intros [E|H]; [discriminate|exact H]]). split; eauto.
Qed.

(** ** Configurations *)
Notation validate := (validate int_of_str float_of_str bool_of_str).
Notation make_config := (make_config int_of_str float_of_str bool_of_str).

Definition given_or (kw : dict) (f : pystr * (ftype * pyval)) : option pyval :=
  match dict_get kw (fst f) with Some v => coerce (fst (snd f)) v | None => Some (snd (snd f)) end.
Lemma validate_some fs kw : (exists r, validate fs kw = Some r) <-> forall f, In f fs -> exists w, given_or kw f = Some w.
Proof.
  induction fs as [|[k [t d]] fs IH]; [split; [intros _ f []|intros _; now exists []]|].
  cbn [Config_Model.validate]. change (match dict_get kw k with Some v => coerce t v | None => Some d end) with (given_or kw (k, (t, d))). split.
  - intros [r E] f [<-|I]; destruct (given_or kw (k, (t, d))) as [w|]; try discriminate; [eauto|].
    destruct (validate fs kw) as [r'|]; [|discriminate]. apply IH; eauto.
  - intros H. destruct (H _ (or_introl eq_refl)) as [w ->]. destruct (proj2 IH) as [r ->]; [intros f I; apply H; now right|]. eauto.
Qed.
Lemma validate_get fs kw r : NoDup (map fst fs) -> validate fs kw = Some r ->
  map fst r = map fst fs /\ forall f, In f fs -> dict_get r (fst f) = given_or kw f.
Proof.
  revert r. induction fs as [|[k [t d]] fs IH]; intros r N E; [injection E as <-; split; [reflexivity|intros f []]|].
  inversion N as [|? ? N1 N2]; subst.
  cbn [Config_Model.validate] in E. change (match dict_get kw k with Some v => coerce t v | None => Some d end) with (given_or kw (k, (t, d))) in E.
  destruct (given_or kw (k, (t, d))) as [w|] eqn:G; [|discriminate]. destruct (validate fs kw) as [r'|]; [|discriminate]. injection E as <-.
  destruct (IH r' N2 eq_refl) as [M H]. split; [cbn; congruence|]. intros f [<-|I]; cbn [fst dict_get].
  - destruct (pystr_eqb_spec k k); [now rewrite G|contradiction].
  - destruct (pystr_eqb_spec k (fst f)) as [->|]; [|now apply H]. exfalso. apply N1. now apply in_map.
Qed.

Lemma config_accepts c kw : dict_ok kw -> no_numerals c kw ->
  (forall k v, In (k, v) kw -> exists t d, In (k, (t, d)) (fields c) /\ fits t v) -> exists cfg, make_config c kw = Ok cfg.
Proof.
  intros N NN H. unfold Config_Model.make_config.
  assert (K : forallb (fun kv => known (fields c) (fst kv)) kw = true).
  { apply all_known. intros k I. apply in_map_iff in I. destruct I as ([k' v] & <- & I). destruct (H _ _ I) as (t & d & F & _). apply (in_map fst) in F. exact F. }
  rewrite K. destruct (proj2 (validate_some (fields c) kw)) as [r ->]; [|eauto].
  intros [k [t d]] I. unfold given_or. cbn [fst snd]. destruct (dict_get kw k) as [v|] eqn:G; [|eauto].
  apply dict_get_in in G. destruct (H _ _ G) as (t' & d' & F & Ft).
  pose proof (nodup_assoc _ _ _ _ (fields_distinct c) I F) as E. injection E as <- <-.
  apply coerce_fits; [|exact Ft]. intros s ->. eapply NN; eauto.
Qed.
Lemma config_fits c kw cfg : dict_ok kw -> no_numerals c kw -> make_config c kw = Ok cfg ->
  forall k v, In (k, v) kw -> exists t d, In (k, (t, d)) (fields c) /\ fits t v.
Proof.
  intros N NN E k v I. unfold Config_Model.make_config in E. destruct (forallb _ kw) eqn:K; [|discriminate].
  destruct (validate (fields c) kw) as [r|] eqn:V; [|discriminate].
  assert (In k (map fst (fields c))) as J. { apply (proj1 (all_known _ _) K). apply (in_map fst) in I. exact I. }
  apply in_map_iff in J. destruct J as ([k' [t d]] & <- & J). cbn [fst] in *. exists t, d. split; [exact J|].
  destruct (proj1 (validate_some (fields c) kw) (ex_intro _ r V) _ J) as [w G]. unfold given_or in G. cbn [fst snd] in G.
  rewrite (proj2 (get_in kw k' v N) I) in G. apply coerce_fits; [|eauto]. intros s ->. eapply NN; eauto.
Qed.
Lemma config_iff c kw : dict_ok kw -> no_numerals c kw ->
  let good := forall k v, In (k, v) kw -> exists t d, In (k, (t, d)) (fields c) /\ fits t v in
  (good -> exists cfg, make_config c kw = Ok cfg /\ cfg_class cfg = c) /\ (~ good -> make_config c kw = Fail ValueError).
Proof.
  intros N NN good. split.
  - intros H. destruct (config_accepts c kw N NN H) as [cfg E]. exists cfg. split; [exact E|]. unfold Config_Model.make_config in E.
    destruct forallb; [|discriminate]. destruct validate; [|discriminate]. now injection E as <-.
  - intros H. destruct (make_config c kw) as [cfg| | |] eqn:E; [exfalso; exact (H (config_fits c kw cfg N NN E))|..];
      unfold Config_Model.make_config in E; destruct forallb; try discriminate; try (now injection E as <-);
      destruct validate; try discriminate; now injection E as <-.
Qed.

(** ** The tables agree *)
Definition find_field (c : config_class) (k : pystr) : option (ftype * pyval) :=
  match find (fun f => pystr_eqb (fst f) k) (fields c) with Some f => Some (snd f) | None => None end.
Lemma find_field_in c k td : find_field c k = Some td -> In (k, td) (fields c).
Proof.
  unfold find_field. destruct find as [[k' td']|] eqn:F; [|discriminate]. intros [= ->]. apply find_some in F. destruct F as [I E].
  cbn in E. destruct (pystr_eqb_spec k' k); [now subst|discriminate].
Qed.
Lemma find_field_none c k : find_field c k = None -> ~ In k (map fst (fields c)).
Proof.
  unfold find_field. destruct find eqn:F; [discriminate|]. intros _ I. apply in_map_iff in I. destruct I as (f & <- & I).
  pose proof (find_none _ _ F _ I) as E. cbn in E. destruct (pystr_eqb_spec (fst f) (fst f)); [discriminate|contradiction].
Qed.
Definition agree (r : recommender) : bool :=
  forallb (fun p => match find_field (config_of r) (fst p) with
                    | Some (_, d) => sameb d (snd p) || existsb (pystr_eqb (fst p)) (differing r)
                    | None => existsb (pystr_eqb (fst p)) (missing_fields r)
                    end) (constructor r) &&
  forallb (fun f => known (constructor r) (fst f) && negb (existsb (pystr_eqb (fst f)) (missing_fields r))) (fields (config_of r)) &&
  forallb (fun k => known (constructor r) k) (missing_fields r).
Lemma agrees r : agree r = true.
Proof. destruct r; vm_compute; reflexivity. Qed.
Lemma existsb_pystr k l : existsb (pystr_eqb k) l = true <-> In k l.
Proof.
  rewrite existsb_exists. split; [intros (x & I & E); destruct (pystr_eqb_spec k x); [now subst|discriminate]|].
  intros I. exists k. split; [exact I|]. destruct (pystr_eqb_spec k k); [reflexivity|contradiction].
Qed.
Lemma field_names r k : In k (map fst (constructor r)) <-> In k (map fst (fields (config_of r))) \/ In k (missing_fields r).
Proof.
  pose proof (agrees r) as A. unfold agree in A. apply andb_prop in A. destruct A as [A M]. apply andb_prop in A. destruct A as [A B].
  rewrite forallb_forall in A, B, M. split.
  - intros I. apply in_map_iff in I. destruct I as (p & <- & I). specialize (A _ I). destruct (find_field (config_of r) (fst p)) as [td|] eqn:F.
    + left. apply find_field_in in F. apply (in_map fst) in F. exact F.
    + right. now apply existsb_pystr.
  - intros [I|I].
    + apply in_map_iff in I. destruct I as (f & <- & I). specialize (B _ I). apply andb_prop in B. apply known_spec, B.
    + apply known_spec, (M _ I).
Qed.
Lemma no_missing_field r k : In k (missing_fields r) -> ~ In k (map fst (fields (config_of r))).
Proof.
  pose proof (agrees r) as A. unfold agree in A. apply andb_prop in A. destruct A as [A _]. apply andb_prop in A. destruct A as [_ B].
  rewrite forallb_forall in B. intros M I. apply in_map_iff in I. destruct I as (f & <- & I). specialize (B _ I). apply andb_prop in B. destruct B as [_ B].
  apply negb_true_iff in B. apply existsb_pystr in M. congruence.
Qed.

End Coerce.

Lemma epochs_name digit_value : is_valid_param_name digit_value (str "train_epochs") = true.
Proof.
  apply valid_name. left. unfold documented_name. eexists _, _. split; [reflexivity|]. split; [left; cbv; intuition discriminate|].
  intros x I. cbn in I. repeat (destruct I as [<-|I]; [solve [right; right; reflexivity|left; left; lia]|]). destruct I.
Qed.
Lemma epochs_fit r e : early_stopping r = true -> exists t d, In (str "train_epochs", (t, d)) (fields (config_of r)) /\ fits t (VInt e).
Proof.
  intros E. destruct r; try discriminate; (eexists TInt, _; split; [apply find_field_in; vm_compute; reflexivity|]); exists e, (inject_Z e); split; reflexivity.
Qed.
Lemma differing_found r k : In k (differing r) -> (k = str "train_epochs" /\ early_stopping r = true) \/ exists ds, In (k, ds) (default_tune_range r).
Proof.
  intros I. destruct r; cbn [differing] in I; try (now destruct I); destruct I as [<-|[]]; [|left; split; reflexivity..].
  right. eexists. right. left. reflexivity.
Qed.
Definition fitsb (t : ftype) (v : pyval) : bool :=
  match Config_Model.coerce (fun _ => None) (fun _ => None) (fun _ => None) t v with Some _ => true | None => false end.
Definition dist_fits (d : dist) (t : ftype) : bool :=
  match d, t with
  | DFloat _ _ _, TFloat => true
  | DInt _ _ _ _, TInt | DInt _ _ _ _, TOpt TInt => true
  | DChoice l, _ => forallb (fitsb t) l
  | _, _ => false
  end.
Definition ranges_fit (r : recommender) : bool :=
  forallb (fun p => match find_field (config_of r) (fst p) with Some (t, _) => dist_fits (snd p) t | None => false end) (default_tune_range r).
Lemma coerce0_textual t s w : Config_Model.coerce (fun _ => None) (fun _ => None) (fun _ => None) t (VStr s) = Some w -> textual t.
Proof. induction t; cbn; try discriminate; auto. Qed.
Lemma fitsb_spec t v : fitsb t v = true -> fits t v.
Proof.
  unfold fitsb. destruct Config_Model.coerce as [w|] eqn:C; [|discriminate]. intros _.
  apply (coerce_fits (fun _ => None) (fun _ => None) (fun _ => None)); [|eauto]. intros s ->. eapply coerce0_textual, C.
Qed.
Lemma all_ranges_fit r : ranges_fit r = true.
Proof. destruct r; vm_compute; reflexivity. Qed.
Lemma range_fits r k ds v : In (k, ds) (default_tune_range r) -> in_dist ds v -> exists t d, In (k, (t, d)) (fields (config_of r)) /\ fits t v.
Proof.
  intros I V. pose proof (all_ranges_fit r) as A. unfold ranges_fit in A. rewrite forallb_forall in A. specialize (A _ I). cbn [fst snd] in A.
  destruct (find_field (config_of r) k) as [[t d]|] eqn:F; [|discriminate]. apply find_field_in in F. exists t, d. split; [exact F|].
  destruct ds as [lo hi lg|lo hi st lg|l]; cbn [in_dist] in V.
  - destruct V as (q & -> & _). destruct t; discriminate.
  - destruct V as (z & -> & _). destruct t as [| | | | |t]; try discriminate; [|destruct t; try discriminate; right]; exists z, (inject_Z z); split; reflexivity.
  - apply fitsb_spec. cbn in A. assert (forallb (fitsb t) l = true) as A' by (destruct t; exact A). rewrite forallb_forall in A'. auto.
Qed.

Section Coerce2.
Variable int_of_str : pystr -> option Z.
Variable float_of_str : pystr -> option Q.
Variable bool_of_str : pystr -> option bool.
Notation coerce := (coerce int_of_str float_of_str bool_of_str).
Notation validate := (validate int_of_str float_of_str bool_of_str).
Notation make_config := (make_config int_of_str float_of_str bool_of_str).
Notation given_or := (given_or int_of_str float_of_str bool_of_str).
Section Build.
Variable T : Type.
Variable build : recommender -> dict -> outcome T.

Lemma isinstance_self r : isinstance_of (config_of r) (config_of r) = true.
Proof. destruct r; reflexivity. Qed.
Lemma isinstance_only r c : isinstance_of c (config_of r) = true -> c = config_of r.
Proof. destruct r, c; cbn; intros H; try reflexivity; discriminate. Qed.
Lemma wrong_config r cfg : cfg_class cfg <> config_of r -> from_config T build r cfg = Fail ValueError.
Proof.
  intros H. unfold from_config. destruct (isinstance_of (cfg_class cfg) (config_of r)) eqn:E; [|reflexivity].
  apply isinstance_only in E. contradiction.
Qed.

Lemma from_config_same r kw cfg : dict_ok kw -> no_numerals (config_of r) kw ->
  make_config (config_of r) kw = Ok cfg -> (forall k, In k (differing r) -> In k (keys kw)) ->
  exists a b, from_config T build r cfg = build r a /\ construct T build r kw = build r b /\ same_args a b.
Proof.
  intros N NN E D. unfold Config_Model.make_config in E. destruct (forallb _ kw) eqn:K; [|discriminate].
  destruct (validate (fields (config_of r)) kw) as [vals|] eqn:V; [|discriminate]. injection E as <-.
  unfold from_config. cbn [cfg_class cfg_values]. rewrite isinstance_self. unfold construct, bind_args.
  destruct (validate_get int_of_str float_of_str bool_of_str _ _ _ (fields_distinct _) V) as [M G].
  rewrite (proj2 (all_known _ vals)). 2: { intros k I. unfold keys in I. rewrite M in I. apply field_names. now left. }
  rewrite (proj2 (all_known _ kw)). 2: { intros k I. apply field_names. left. exact (proj1 (all_known _ _) K k I). }
  cbn [obind]. do 2 eexists. split; [reflexivity|]. split; [reflexivity|].
  pose proof (agrees r) as A. unfold agree in A. apply andb_prop in A. destruct A as [A _]. apply andb_prop in A. destruct A as [A _].
  rewrite forallb_forall in A. unfold same_args.
  assert (forall l, incl l (constructor r) -> Forall2 (fun a b : pystr * pyval => fst a = fst b /\ same_value (snd a) (snd b))
    (map (fun p => (fst p, match dict_get vals (fst p) with Some v => v | None => snd p end)) l)
    (map (fun p => (fst p, match dict_get kw (fst p) with Some v => v | None => snd p end)) l)) as H; [|apply H, incl_refl].
  induction l as [|p l IH]; intros I; [constructor|]. cbn [map]. constructor; [|apply IH; intros x Hx; apply I; now right].
  cbn [fst snd]. split; [reflexivity|]. specialize (A p (I p (or_introl eq_refl))).
  destruct (find_field (config_of r) (fst p)) as [[t d]|] eqn:F.
  - apply find_field_in in F. specialize (G _ F). cbn [fst] in G. rewrite G. unfold given_or. cbn [fst snd].
    destruct (dict_get kw (fst p)) as [v|] eqn:Gv.
    + destruct (coerce t v) as [w|] eqn:C.
      * apply same_sym. eapply (coerce_same int_of_str float_of_str bool_of_str); [|exact C]. intros s ->. apply dict_get_in in Gv. eapply NN; eauto.
      * destruct (proj1 (validate_some int_of_str float_of_str bool_of_str _ kw) (ex_intro _ vals V) _ F) as [w W]. unfold given_or in W. cbn [fst snd] in W. rewrite Gv in W. congruence.
    + apply orb_prop in A. destruct A as [A|A]; [now apply sameb_spec|]. apply existsb_pystr in A. apply dict_get_none in Gv. exfalso. auto.
  - apply find_field_none in F. replace (dict_get vals (fst p)) with (@None pyval).
    2: { symmetry. apply dict_get_none. unfold keys. now rewrite M. }
    replace (dict_get kw (fst p)) with (@None pyval); [apply same_refl|]. symmetry. apply dict_get_none. intros J. apply F. exact (proj1 (all_known _ _) K _ J).
Qed.

(** ** Tuned parameters *)
Lemma fits_textual t s : fits t (VStr s) -> textual t.
Proof. induction t; cbn; try tauto; [intros (z & q & E & _); discriminate|intros (q & E & _); discriminate|intros [E|H]; [discriminate|auto]]. Qed.

Lemma tuned digit_value sample train r fixed n best :
  (forall i k ds, In (k, ds) (default_tune_range r) -> in_dist ds (sample i k ds)) ->
  (forall i d sc learnt, train i d = Scored sc learnt -> learns r learnt) ->
  dict_ok fixed -> no_numerals (config_of r) fixed -> (exists cfg, make_config (config_of r) fixed = Ok cfg) ->
  snd (tune digit_value sample train true false None (default_tune_range r) fixed n []) = Ok best ->
  exists cfg a b, make_config (config_of r) (dict_update best fixed) = Ok cfg /\
    from_config T build r cfg = build r a /\ construct T build r (dict_update best fixed) = build r b /\ same_args a b.
Proof.
  intros S L Nf NNf [cf Cf] E. pose proof (config_fits int_of_str float_of_str bool_of_str _ _ _ Nf NNf Cf) as Ff.
  destruct (tune_best digit_value sample train true false None (default_tune_range r) fixed n [] best ltac:(intros ? ? []) E) as (t & v & Lc & _ & Mg & B).
  destruct (tune_trials digit_value sample train true false None (default_tune_range r) fixed n [] (or_introl eq_refl)) as (k & _ & Et). cbn [app length used_suggest] in Et.
  destruct Lc as (l1 & l2 & Es & St & _). assert (I : In t (l1 ++ t :: l2)) by (apply in_or_app; right; now left). rewrite <- Es, Et in I. clear Es Et l1 l2.
  apply in_map_iff in I. destruct I as (j & <- & _).
  destruct (default_in (default_tune_range r) fixed (sample j) (ranges_distinct r)) as [D1 D2].
  destruct (trial_fields sample train (default_suggest (default_tune_range r) fixed) fixed j) as (_ & P & _ & C & A). cbn zeta in *.
  set (t := trial_of sample train (default_suggest (default_tune_range r) fixed) fixed j) in *. clearbody t.
  apply C in St. destruct St as (sc & learnt & Tr & _ & _). specialize (A _ _ Tr). specialize (L _ _ _ _ Tr). clear Tr C.
  change (snd (default_suggest (default_tune_range r) fixed (sample j))) with (fst (default_suggest (default_tune_range r) fixed (sample j))) in P.
  rewrite <- P in D1, D2. clear P.
  assert (dict_ok learnt) as Nl. { unfold learns in L. destruct early_stopping; [destruct L as [e ->]; repeat constructor; intros []|subst; constructor]. }
  rewrite update_nil in A by exact Nl. rewrite A in *. clear A.
  assert (dict_ok best) as Nb. { eapply merge_ok; [exact D1| |exact Mg]. unfold dict_ok, keys. clear - Nl. induction learnt as [|[a b] l IH]; [constructor|].
    inversion Nl; subst. cbn [filter fst]. destruct (is_valid_param_name digit_value a); [|auto]. cbn [map]. constructor; [|auto]. intros J. apply H1.
    apply in_map_iff in J. destruct J as (x & Ex & J). apply filter_In in J. exact (eq_ind _ (fun z => In z (map fst l)) (in_map fst _ _ (proj1 J)) _ Ex). }
  assert (forall k v, In (k, v) (dict_update best fixed) -> exists t d, In (k, (t, d)) (fields (config_of r)) /\ fits t v) as F.
  { intros k' x I. apply update_in in I; [|assumption..]. destruct I as [I|[_ I]]; [now apply Ff|]. apply B in I. destruct I as [I|[I _]].
    - apply D2 in I. destruct I as (ds & I & _ & ->). exact (range_fits r k' ds _ I (S j k' ds I)).
    - unfold learns in L. destruct (early_stopping r) eqn:ES; [|subst learnt; destruct I]. destruct L as [e ->]. destruct I as [[= <- <-]|[]].
      exact (epochs_fit r e ES). }
  assert (no_numerals (config_of r) (dict_update best fixed)) as NN.
  { intros k' s t' d I J. destruct (F _ _ I) as (t2 & d2 & J2 & Ft). pose proof (nodup_assoc _ _ _ _ (fields_distinct _) J J2) as Eq. injection Eq as <- <-. eapply fits_textual, Ft. }
  destruct (config_accepts int_of_str float_of_str bool_of_str _ _ (update_ok fixed best Nb) NN F) as [cfg Cg]. exists cfg.
  destruct (from_config_same r _ cfg (update_ok fixed best Nb) NN Cg) as (a & b & H1 & H2 & H3); [|exists a, b; auto].
  intros k' Hd. assert (forall x, In (k', x) best -> In k' (keys (dict_update best fixed))) as Kb.
  { intros x I. destruct (in_dec (list_eq_dec Z.eq_dec) k' (keys fixed)) as [J|J].
    - apply in_map_iff in J. destruct J as ([k2 y] & <- & J). apply (in_map fst (dict_update best fixed) (k2, y)). apply update_in; auto.
    - apply (in_map fst (dict_update best fixed) (k', x)). apply update_in; auto. }
  destruct (in_dec (list_eq_dec Z.eq_dec) k' (keys fixed)) as [J|J].
  { apply in_map_iff in J. destruct J as ([k2 y] & <- & J). apply (in_map fst (dict_update best fixed) (k2, y)). apply update_in; auto. }
  destruct (differing_found r k' Hd) as [[-> Es]|[ds I]].
  - unfold learns in L. rewrite Es in L. destruct L as [e ->]. apply (Kb (VInt e)). apply B. right. split; [now left|]. apply epochs_name.
  - apply (Kb (sample j k' ds)). apply B. left. apply D2. exists ds. auto.
Qed.
End Build.
End Coerce2.

(** ** The registry *)
Section Registry.
Variable C : Type.
Lemma reg_get_set l k (c : C) k' : reg_get C (reg_set C l k c) k' = if pystr_eqb k k' then Ok c else reg_get C l k'.
Proof.
  induction l as [|[a b] l IH]; cbn [reg_set reg_get]; [destruct (pystr_eqb_spec k k'); reflexivity|].
  destruct (pystr_eqb_spec a k) as [->|N]; cbn [reg_get].
  - destruct (pystr_eqb_spec k k'); reflexivity.
  - rewrite IH. destruct (pystr_eqb_spec a k') as [->|]; [|reflexivity]. destruct (pystr_eqb_spec k k'); [congruence|reflexivity].
Qed.
Lemma registry program name :
  (forall c, get_recommender_class C program name = Ok c <->
     exists before after, program = before ++ mkClass C name c true :: after /\
       forall s, In s after -> cs_register C s = true -> cs_name C s <> name) /\
  (get_recommender_class C program name = Fail KeyError <-> forall s, In s program -> cs_register C s = true -> cs_name C s <> name).
Proof.
  unfold get_recommender_class. induction program as [|s program IH] using rev_ind.
  - cbn. split; [|tauto]. intros c. split; [discriminate|]. intros (b & a & E & _). destruct b; discriminate.
  - rewrite fold_left_app. cbn [fold_left]. destruct IH as [IH1 IH2]. unfold run_class at 1 3. destruct s as [nm cl rg]. cbn [cs_register cs_name cs_class].
    assert (rg = true /\ nm = name \/ (rg = true -> nm <> name)) as [[-> ->]|N] by (destruct rg; [destruct (list_eq_dec Z.eq_dec nm name); auto|right; discriminate]).
    + rewrite reg_get_set. destruct (pystr_eqb_spec name name); [|contradiction]. split.
      * intros c. split; [intros [= <-]; exists program, []; split; [reflexivity|intros ? []]|].
        intros (b & a & E & H). destruct a as [|x a _] using rev_ind; [apply app_inj_tail in E; destruct E as [_ [= <-]]; reflexivity|].
        rewrite app_comm_cons, app_assoc in E. apply app_inj_tail in E. destruct E as [_ <-].
        exfalso. apply (H (mkClass C name cl true)); [apply in_or_app; right; now left|reflexivity..].
      * split; [discriminate|]. intros H. exfalso. apply (H (mkClass C name cl true)); [apply in_or_app; right; now left|reflexivity..].
    + replace (reg_get C (if rg then _ else _) name) with (reg_get C (fold_left (run_class C) program []) name).
      2: { destruct rg; [|reflexivity]. rewrite reg_get_set. destruct (pystr_eqb_spec nm name); [now specialize (N eq_refl)|reflexivity]. }
      split.
      * intros c. rewrite IH1. split.
        -- intros (b & a & -> & H). exists b, (a ++ [mkClass C nm cl rg]). rewrite <- app_assoc. split; [reflexivity|].
           intros s I R. apply in_app_or in I. destruct I as [I|[<-|[]]]; [now apply H|now apply N].
        -- intros (b & a & E & H). destruct a as [|x a _] using rev_ind.
           ++ apply app_inj_tail in E. destruct E as [_ E]. injection E as -> -> ->. now specialize (N eq_refl).
           ++ rewrite app_comm_cons, app_assoc in E. apply app_inj_tail in E. destruct E as [-> _]. exists b, a. split; [reflexivity|].
              intros s I. apply H, in_or_app. now left.
      * rewrite IH2. split; intros H s I; [apply in_app_or in I; destruct I as [I|[<-|[]]]; [now apply H|exact N]|apply H, in_or_app; now left].
Qed.
End Registry.

Lemma arguments r k : In k (map fst (fields (config_of r))) <-> In k (map fst (constructor r)) /\ ~ In k (missing_fields r).
Proof.
  rewrite field_names. split.
  - intros I. split; [now left|]. intros M. exact (no_missing_field r k M I).
  - intros [[I|I] N]; [exact I|contradiction].
Qed.

Lemma construct_binds T (build : recommender -> dict -> outcome T) r kw : dict_ok kw ->
  ((forall k, In k (keys kw) -> In k (map fst (constructor r))) ->
   exists b, construct T build r kw = build r b /\ keys b = map fst (constructor r) /\
     (forall k v, In (k, v) kw -> In (k, v) b) /\
     (forall k d, In (k, d) (constructor r) -> ~ In k (keys kw) -> In (k, d) b)) /\
  (forall k, In k (keys kw) -> ~ In k (map fst (constructor r)) -> construct T build r kw = Fail TypeError).
Proof.
  intros OK. unfold construct, bind_args. split.
  - intros H. rewrite (proj2 (all_known (constructor r) kw) H).
    cbn [obind]. eexists. split; [reflexivity|]. split; [unfold keys; rewrite map_map; apply map_ext; reflexivity|]. split.
    + intros k v I. assert (K : In k (map fst (constructor r))) by (apply H, in_map_iff; now exists (k, v)).
      apply in_map_iff in K. destruct K as ([k' d] & E & K). cbn in E. subst k'. apply in_map_iff. exists (k, d).
      split; [|exact K]. cbn [fst snd]. now rewrite (proj2 (get_in kw k v OK) I).
    + intros k d I N. apply in_map_iff. exists (k, d). split; [|exact I]. cbn [fst snd].
      destruct (dict_get kw k) as [v|] eqn:E; [|reflexivity]. apply get_in in E; [|exact OK]. destruct N. apply in_map_iff. now exists (k, v).
  - intros k I N. destruct (forallb (fun kv => known (constructor r) (fst kv)) kw) eqn:E; [|reflexivity].
    destruct N. apply in_map_iff in I. destruct I as ([k' v] & Ek & I). cbn in Ek. subst k'. rewrite forallb_forall in E.
    apply known_spec. exact (E (k, v) I).
Qed.
