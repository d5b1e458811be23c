(** Parameter names, integer literals, thread counts. *)
From Verif Require Import Base PyStr_Model PyStr_Spec.
From Coq Require Import QArith.
Local Open Scope Z_scope.

Section Proofs.
Variable digit_value : Z -> option Z.
Hypothesis digits_ok : ascii_digits digit_value.
Notation name_char := (name_char digit_value).

Lemma letter_spec c : is_letter c = true <-> 97 <= c <= 122 \/ 65 <= c <= 90.
Proof. unfold is_letter. rewrite orb_true_iff, !andb_true_iff, !Z.leb_le. tauto. Qed.
Lemma name_char_spec c : name_char c = true <-> letter_or_digit digit_value c.
Proof.
  unfold PyStr_Model.name_char, letter_or_digit, is_digit. rewrite orb_true_iff, letter_spec.
  destruct (digit_value c); split; intros [H|H]; auto; try discriminate; try (right; congruence).
Qed.
Lemma name_mark_spec c : name_mark c = true <-> c = 45 \/ c = 95.
Proof. unfold name_mark. rewrite orb_true_iff, !Z.eqb_eq. tauto. Qed.
Lemma newline_not_char : name_char 10 = false /\ name_mark 10 = false.
Proof.
  split; [|reflexivity]. unfold PyStr_Model.name_char, is_digit. rewrite digits_ok by lia. reflexivity.
Qed.
Lemma mark_not_char c : name_mark c = true -> name_char c = false.
Proof.
  intros H. apply name_mark_spec in H. unfold PyStr_Model.name_char, is_digit.
  destruct H as [-> | ->]; rewrite digits_ok by lia; reflexivity.
Qed.

(** What a matcher accepts: the consumed prefix. *)
Definition consumes (a : matcher) (P : pystr -> Prop) : Prop := forall s r, In r (a s) <-> exists w, s = w ++ r /\ P w.

Lemma cls_consumes p : consumes (cls p) (fun w => exists c, w = [c] /\ p c = true).
Proof.
  intros s r. unfold cls. destruct s as [|c s].
  - split; [intros []|]. intros (w & E & d & -> & _). discriminate.
  - destruct (p c) eqn:E; split.
    + intros [<-|[]]. exists [c]. split; [reflexivity|]. now exists c.
    + intros (w & E' & d & -> & _). injection E' as <- <-. now left.
    + intros [].
    + intros (w & E' & d & -> & H). injection E' as <- <-. congruence.
Qed.
Lemma seq_consumes a b P Q' : consumes a P -> consumes b Q' -> consumes (seq_re a b) (fun w => exists u v, w = u ++ v /\ P u /\ Q' v).
Proof.
  intros Ha Hb s r. unfold seq_re. rewrite in_flat_map. split.
  - intros (x & H1 & H2). apply Ha in H1. destruct H1 as (u & -> & Pu). apply Hb in H2. destruct H2 as (v & -> & Qv).
    exists (u ++ v). split; [now rewrite app_assoc|]. exists u, v. auto.
  - intros (w & -> & u & v & -> & Pu & Qv). exists (v ++ r). split; [apply Ha|apply Hb].
    + exists u. split; [now rewrite app_assoc|exact Pu].
    + exists v. auto.
Qed.
Inductive many (P : pystr -> Prop) : pystr -> Prop :=
| many_nil : many P []
| many_cons u w : P u -> u <> [] -> many P w -> many P (u ++ w).
Lemma star_consumes a P : consumes a P -> (forall w, P w -> w <> []) -> consumes (star a) (many P).
Proof.
  intros Ha Hne. unfold star. assert (G : forall f s r, (length s <= f)%nat -> (In r (star_fuel f a s) <-> exists w, s = w ++ r /\ many P w)).
  - induction f as [|f IH]; intros s r Hl; cbn [star_fuel].
    + destruct s; [|cbn in Hl; lia]. split.
      * intros [<-|[]]. exists []. split; [reflexivity|constructor].
      * intros (w & E & _). symmetry in E. apply app_eq_nil in E. destruct E as [_ ->]. now left.
    + rewrite in_app_iff, in_flat_map. split.
      * intros [(x & Hx & Hr)|[<-|[]]]; [|exists []; split; [reflexivity|constructor]].
        apply Ha in Hx. destruct Hx as (u & -> & Pu). destruct (_ <? _)%nat eqn:E; [|now destruct Hr].
        apply Nat.ltb_lt in E. apply IH in Hr; [|lia]. destruct Hr as (w & -> & M). exists (u ++ w). split; [now rewrite app_assoc|].
        constructor; auto.
      * intros (w & -> & M). destruct M as [|u w Pu Nu M]; [right; now left|]. left. exists (w ++ r). split.
        -- apply Ha. exists u. split; [now rewrite app_assoc|exact Pu].
        -- assert (L : (length (w ++ r) < length ((u ++ w) ++ r))%nat) by (rewrite !app_length; destruct u; [contradiction|cbn; lia]).
           rewrite (proj2 (Nat.ltb_lt _ _) L). apply IH; [lia|]. exists w. auto.
  - intros s r. apply G. lia.
Qed.
Lemma plus_consumes a P : consumes a P -> (forall w, P w -> w <> []) -> consumes (plus a) (fun w => exists u v, w = u ++ v /\ P u /\ many P v).
Proof. intros. apply seq_consumes; [assumption|]. now apply star_consumes. Qed.

Lemma many_cls p w : many (fun w => exists c, w = [c] /\ p c = true) w <-> forall c, In c w -> p c = true.
Proof.
  split.
  - induction 1 as [|u w (c & -> & Hc) _ _ IH]; [intros c []|]. intros x [<-|Hx]; auto.
  - induction w as [|c w IH]; intros H; [constructor|]. apply (many_cons _ [c]); [exists c; split; [reflexivity|apply H; now left]|discriminate|].
    apply IH. intros x Hx. apply H. now right.
Qed.

(** One group: characters, then marks. *)
Definition group (w : pystr) : Prop := exists c u v, w = c :: u ++ v /\ name_char c = true /\
  (forall x, In x u -> name_char x = true) /\ (forall x, In x v -> name_mark x = true).
Lemma consumes_ext a (P P' : pystr -> Prop) : consumes a P -> (forall w, P w <-> P' w) -> consumes a P'.
Proof. intros H E s r. rewrite (H s r). split; intros (w & -> & Hw); exists w; split; auto; now apply E. Qed.
Lemma group_consumes : consumes (seq_re (plus (cls name_char)) (star (cls name_mark))) group.
Proof.
  assert (NE : forall p w, (exists c : Z, w = [c] /\ p c = true) -> w <> []) by (intros p w (c & -> & _); discriminate).
  eapply consumes_ext; [apply seq_consumes; [apply plus_consumes; [apply cls_consumes|apply NE]|apply star_consumes; [apply cls_consumes|apply NE]]|].
  intros w. split.
  - intros (x & v & -> & (y & u & -> & (c & -> & Hc) & Mu) & Mv). rewrite many_cls in Mu, Mv. exists c, u, v. auto.
  - intros (c & u & v & -> & Hc & Hu & Hv). exists (c :: u), v. split; [reflexivity|]. split; [|now apply many_cls].
    exists [c], u. split; [reflexivity|]. split; [now exists c|]. now apply many_cls.
Qed.
Lemma group_ne w : group w -> w <> [].
Proof. intros (c & u & v & -> & _). discriminate. Qed.

Definition body_char (c : Z) : Prop := name_char c = true \/ name_mark c = true.
Lemma group_body w : group w -> forall x, In x w -> body_char x.
Proof.
  intros (c & u & v & -> & Hc & Hu & Hv) x [<-|Hx]; [now left|]. apply in_app_or in Hx. destruct Hx; [left|right]; auto.
Qed.
Lemma many_body w : many group w -> forall x, In x w -> body_char x.
Proof. induction 1 as [|u w G _ _ IH]; [intros x []|]. intros x Hx. apply in_app_or in Hx. destruct Hx; eauto using group_body. Qed.

(** A name without the trailing newline. *)
Lemma groups_iff w : (exists u v, w = u ++ v /\ group u /\ many group v) <->
  exists c t, w = c :: t /\ name_char c = true /\ forall x, In x t -> body_char x.
Proof.
  split.
  - intros (u & v & -> & G & M). pose proof (group_body _ G) as HB. pose proof (many_body _ M) as HM.
    destruct G as (c & a & b & -> & Hc & _). exists c, ((a ++ b) ++ v). split; [reflexivity|]. split; [exact Hc|].
    intros x Hx. apply in_app_or in Hx. destruct Hx as [Hx|Hx]; [apply HB; now right|now apply HM].
  - intros (c & t & -> & Hc & Ht). revert c Hc. induction t as [|x t IH]; intros c Hc.
    + exists [c], []. split; [reflexivity|]. split; [|constructor]. exists c, [], []. repeat split; auto; intros ? [].
    + assert (Hb : body_char x) by (apply Ht; now left). destruct Hb as [Hx|Hx].
      * destruct (IH (fun y Hy => Ht y (or_intror Hy)) x Hx) as (u & v & E & G & M). exists [c], (u ++ v).
        split; [cbn; now rewrite <- E|]. split; [exists c, [], []; repeat split; auto; intros ? []|].
        apply many_cons; [exact G|now apply group_ne|exact M].
      * (* marks following: induct on the remaining list for the group of c *)
        assert (SP : forall l, (forall y, In y l -> body_char y) -> exists m n, l = m ++ n /\ (forall y, In y m -> name_mark y = true) /\
                   (n = [] \/ exists c' n', n = c' :: n' /\ name_char c' = true)).
        { induction l as [|y l IHl]; intros Hl; [exists [], []; repeat split; auto; intros ? []|].
          destruct (Hl y (or_introl eq_refl)) as [Hy|Hy].
          - exists [], (y :: l). repeat split; [intros ? []|]. right. exists y, l. auto.
          - destruct (IHl (fun z Hz => Hl z (or_intror Hz))) as (m & n & -> & Hm & Hn). exists (y :: m), n. repeat split; auto.
            intros z [<-|Hz]; auto. }
        (* the tail t as if its head were a character: use strong statement *)
        clear IH.
        assert (ST : forall k l c, (length l <= k)%nat -> name_char c = true -> (forall y, In y l -> body_char y) ->
                   exists u v, c :: l = u ++ v /\ group u /\ many group v).
        { induction k as [|k IHk]; intros l c' Hl Hc' Hb'.
          - destruct l; [|cbn in Hl; lia]. exists [c'], []. split; [reflexivity|]. split; [|constructor]. exists c', [], []. repeat split; auto; intros ? [].
          - destruct (SP l Hb') as (m & n & -> & Hm & Hn). exists (c' :: m), n. split; [reflexivity|]. split.
            + exists c', [], m. split; [reflexivity|]. split; [exact Hc'|]. split; [intros ? []|exact Hm].
            + destruct Hn as [-> | (c'' & n' & -> & Hc'')]; [constructor|].
              destruct (IHk n' c'') as (u & v & E & G & M); [rewrite app_length in Hl; cbn in Hl; lia|exact Hc''|intros y Hy; apply Hb', in_or_app; right; now right|].
              rewrite E. apply many_cons; [exact G|now apply group_ne|exact M]. }
        apply (ST (length (x :: t))); auto.
Qed.

Lemma documented_iff w : documented_name digit_value w <-> exists c t, w = c :: t /\ name_char c = true /\ forall x, In x t -> body_char x.
Proof.
  unfold documented_name, body_char. split; intros (c & t & -> & Hc & Ht); exists c, t; (split; [reflexivity|]).
  - split; [now apply name_char_spec|]. intros x Hx. rewrite name_char_spec, name_mark_spec. now apply Ht.
  - split; [now apply name_char_spec|]. intros x Hx. rewrite <- name_char_spec, <- name_mark_spec. now apply Ht.
Qed.

Lemma at_end_newline x r : at_end (x :: r) = true -> x :: r = [10].
Proof.
  unfold at_end. intros H.
  repeat match type of H with context [match ?y with _ => _ end] => destruct y; try discriminate H end. reflexivity.
Qed.

Lemma valid_name s : is_valid_param_name digit_value s = true <->
  documented_name digit_value s \/ exists w, s = w ++ [10] /\ documented_name digit_value w.
Proof.
  unfold is_valid_param_name, name_checker. rewrite existsb_exists.
  assert (C := plus_consumes _ _ group_consumes group_ne).
  split.
  - intros (r & Hr & He). apply C in Hr. destruct Hr as (w & -> & Hw). apply groups_iff in Hw. apply documented_iff in Hw.
    destruct r as [|x r]; [left; now rewrite app_nil_r|]. right. exists w. split; [|exact Hw]. f_equal.
    now apply at_end_newline.
  - intros [H|(w & -> & H)]; apply documented_iff, groups_iff in H.
    + exists []. split; [|reflexivity]. apply C. exists s. split; [now rewrite app_nil_r|exact H].
    + exists [10]. split; [|reflexivity]. apply C. exists w. auto.
Qed.

Lemma make_range_iff name low high rg : make_range digit_value name low high = Ok rg <->
  rg = mkRange name low high /\ (documented_name digit_value name \/ exists w, name = w ++ [10] /\ documented_name digit_value w) /\ (low <= high)%Q.
Proof.
  rewrite <- valid_name. unfold make_range, parameter_range. destruct (is_valid_param_name digit_value name); cbn [obind].
  - destruct (Qle_bool low high) eqn:E; cbn [negb].
    + split; [intros [= <-]; repeat split; now apply Qle_bool_iff|intros (-> & _); reflexivity].
    + split; [discriminate|]. intros (_ & _ & H). apply Qle_bool_iff in H. congruence.
  - split; [discriminate|]. intros (_ & H & _). discriminate.
Qed.
Lemma make_range_fails name low high : make_range digit_value name low high = Fail ValueError \/ exists rg, make_range digit_value name low high = Ok rg.
Proof. unfold make_range, parameter_range. destruct (is_valid_param_name digit_value name); cbn [obind]; [|now left]. destruct (negb _); [now left|eauto]. Qed.

(** ** Integer literals *)
Variable is_space : Z -> bool.
Variable max_digits : nat.
Hypothesis signs_ok : is_space 45 = false /\ is_space 43 = false.
Hypothesis disjoint : forall c, digit_value c <> None -> is_space c = false.

Lemma horner_app ds : forall a, fold_left (fun a d => a * 10 + d) ds a = a * 10 ^ Z.of_nat (length ds) + decimal ds.
Proof.
  induction ds as [|d ds IH]; intros a; cbn [fold_left decimal length]; [cbn; lia|].
  rewrite IH, Nat2Z.inj_succ, Z.pow_succ_r by lia. ring.
Qed.
Lemma horner_decimal ds : horner ds = decimal ds.
Proof. unfold horner. rewrite horner_app. lia. Qed.

Lemma under_no_digit : digit_value 95 = None.
Proof. now rewrite digits_ok by lia. Qed.

Lemma int_body_iff s : forall ds, (int_body digit_value false s = Some ds <-> grouped digit_value s ds) /\
  (int_body digit_value true s = Some ds <-> (s = [] /\ ds = []) \/ grouped digit_value s ds \/ exists s', s = 95 :: s' /\ grouped digit_value s' ds).
Proof.
  induction s as [|c s IH]; intros ds; cbn [int_body].
  - split; split.
    + discriminate.
    + intros H. inversion H.
    + intros [= <-]. now left.
    + intros [[_ ->]|[H|(s' & H & _)]]; [reflexivity|inversion H|discriminate].
  - assert (DIG : forall d, digit_value c = Some d -> (match int_body digit_value true s with Some ds => Some (d :: ds) | None => None end = Some ds <-> grouped digit_value (c :: s) ds)).
    { intros d Hd. split.
      - case_eq (int_body digit_value true s); [intros ds' E|discriminate]. intros [= <-].
        apply IH in E. destruct E as [[-> ->]|[E|(s' & -> & E)]].
        + now constructor.
        + now constructor.
        + now constructor.
      - intros H. inversion H; subst; rewrite Hd in *.
        + cbn. congruence.
        + assert (E : int_body digit_value true s = Some ds0) by (apply IH; auto). rewrite E. congruence.
        + assert (E : int_body digit_value true (95 :: s0) = Some ds0) by (apply IH; eauto). rewrite E. congruence. }
    destruct (digit_value c) as [d|] eqn:Hd.
    + rewrite (DIG d eq_refl). split; [reflexivity|]. split; [auto|]. intros [[H _]|[H|(s' & H & _)]]; [discriminate|exact H|].
      injection H as -> _. rewrite under_no_digit in Hd. discriminate.
    + assert (NG : ~ grouped digit_value (c :: s) ds) by (intros H; inversion H; subst; congruence).
      rewrite andb_false_r, andb_true_r. split; [split; [discriminate|contradiction]|].
      destruct (Z.eqb_spec c 95) as [->|Hc].
      * rewrite (proj1 (IH ds)). split; [eauto|]. intros [[H _]|[H|(s' & [= <-] & H)]]; [discriminate|contradiction|exact H].
      * split; [discriminate|]. intros [[H _]|[H|(s' & H & _)]]; [discriminate|contradiction|]. injection H as H _. contradiction.
Qed.
Lemma unsigned_iff s n : unsigned_int digit_value max_digits s = Some n <->
  exists ds, grouped digit_value s ds /\ (length ds <= max_digits)%nat /\ n = decimal ds.
Proof.
  unfold unsigned_int. split.
  - case_eq (int_body digit_value false s); [intros ds E|discriminate]. apply int_body_iff in E.
    destruct (Nat.ltb_spec max_digits (length ds)); [discriminate|]. intros [= <-]. exists ds. rewrite horner_decimal. auto.
  - intros (ds & G & L & ->). apply int_body_iff in G. rewrite G. destruct (Nat.ltb_spec max_digits (length ds)); [lia|]. now rewrite horner_decimal.
Qed.

(** strip takes off exactly the white space around. *)
Lemma lstrip_spec s : exists l, s = l ++ lstrip is_space s /\ (forall c, In c l -> is_space c = true) /\
  (lstrip is_space s = [] \/ exists c t, lstrip is_space s = c :: t /\ is_space c = false).
Proof.
  induction s as [|c s IH]; cbn [lstrip]; [exists []; repeat split; auto; intros ? []|].
  destruct (is_space c) eqn:E.
  - destruct IH as (l & E1 & E2 & E3). exists (c :: l). split; [cbn; now rewrite <- E1|]. split; [|exact E3]. intros x [<-|Hx]; auto.
  - exists []. repeat split; [intros ? []|]. right. exists c, s. auto.
Qed.
Lemma lstrip_app l s : (forall c, In c l -> is_space c = true) -> lstrip is_space (l ++ s) = lstrip is_space s.
Proof. induction l as [|c l IH]; intros H; [reflexivity|]. cbn. rewrite (H c) by now left. apply IH. intros; apply H; now right. Qed.
Lemma lstrip_id c s : is_space c = false -> lstrip is_space (c :: s) = c :: s.
Proof. cbn. now intros ->. Qed.
Lemma strip_unique l c m r : (forall x, In x l -> is_space x = true) -> (forall x, In x r -> is_space x = true) ->
  is_space c = false -> (exists t z, c :: m = t ++ [z] /\ is_space z = false) -> strip is_space (l ++ (c :: m) ++ r) = c :: m.
Proof.
  intros Hl Hr Hc (t & z & E & Hz). unfold strip. rewrite lstrip_app by exact Hl. cbn [app]. rewrite lstrip_id by exact Hc.
  change (c :: m ++ r) with ((c :: m) ++ r). rewrite rev_app_distr, lstrip_app by (intros x Hx; apply Hr; now apply in_rev).
  rewrite E, rev_app_distr. cbn [rev app]. rewrite lstrip_id by exact Hz. cbn [rev]. now rewrite rev_involutive.
Qed.
Lemma strip_split s : exists l r, s = l ++ strip is_space s ++ r /\ (forall x, In x l -> is_space x = true) /\ (forall x, In x r -> is_space x = true).
Proof.
  unfold strip. destruct (lstrip_spec s) as (l & E1 & H1 & _). destruct (lstrip_spec (rev (lstrip is_space s))) as (r & E2 & H2 & _).
  exists l, (rev r). split; [|split; [exact H1|intros x Hx; apply H2; now apply in_rev]].
  rewrite E1 at 1. f_equal. rewrite <- (rev_involutive (lstrip is_space s)) at 1. rewrite E2 at 1. now rewrite rev_app_distr.
Qed.
Lemma grouped_first s ds : grouped digit_value s ds -> exists c t, s = c :: t /\ digit_value c <> None.
Proof. destruct 1; [exists c, []|exists c, s|exists c, (95 :: s)]; split; auto; congruence. Qed.
Lemma grouped_last s ds : grouped digit_value s ds -> exists t z, s = t ++ [z] /\ digit_value z <> None.
Proof.
  induction 1 as [c d H|c d s ds H _ (t & z & -> & Hz)|c d s ds H _ (t & z & -> & Hz)].
  - exists [], c. split; [reflexivity|congruence].
  - exists (c :: t), z. split; [reflexivity|exact Hz].
  - exists (c :: 95 :: t), z. split; [reflexivity|exact Hz].
Qed.

Lemma py_int_head c t : c <> 45 -> c <> 43 -> forall s, strip is_space s = c :: t -> py_int digit_value is_space max_digits s = unsigned_int digit_value max_digits (c :: t).
Proof.
  intros H1 H2 s E. unfold py_int. rewrite E. destruct c as [|p|p]; try reflexivity.
  do 6 (destruct p as [p|p|]; try reflexivity); contradiction.
Qed.

Lemma py_int_iff s n : py_int digit_value is_space max_digits s = Some n <-> integer_literal digit_value is_space max_digits s n.
Proof.
  split.
  - intros H. destruct (strip_split s) as (l & r & E & Hl & Hr).
    assert (ND : forall x : Z, (x =? 45) || (x =? 43) = true \/ (x <> 45 /\ x <> 43)) by (intros x; destruct (Z.eqb_spec x 45), (Z.eqb_spec x 43); auto).
    destruct (strip is_space s) as [|c t] eqn:ES.
    + unfold py_int in H. rewrite ES in H. discriminate.
    + destruct (ND c) as [Hc|[H1 H2]].
      * apply orb_true_iff in Hc. rewrite !Z.eqb_eq in Hc. destruct Hc as [-> | ->].
        -- unfold py_int in H. rewrite ES in H. destruct (unsigned_int digit_value max_digits t) as [k|] eqn:EU; [|discriminate]. injection H as <-.
           apply unsigned_iff in EU. destruct EU as (ds & G & L & ->). exists l, [45], t, r, ds. split; [exact E|]. repeat (split; [assumption|]). left. auto.
        -- unfold py_int in H. rewrite ES in H. apply unsigned_iff in H. destruct H as (ds & G & L & ->).
           exists l, [43], t, r, ds. split; [exact E|]. repeat (split; [assumption|]). right. auto.
      * rewrite (py_int_head c t H1 H2 s ES) in H. apply unsigned_iff in H. destruct H as (ds & G & L & ->).
        exists l, [], (c :: t), r, ds. split; [exact E|]. repeat (split; [assumption|]). right. auto.
  - intros (l & sign & body & r & ds & -> & Hl & Hr & G & L & HS).
    assert (LAST := grouped_last _ _ G). destruct LAST as (t & z & Eb & Hz). apply disjoint in Hz.
    assert (MINUS : is_space 45 = false) by apply signs_ok.
    assert (PLUS : is_space 43 = false) by apply signs_ok.
    destruct HS as [[-> ->]|[[-> | ->] ->]].
    + assert (ES : strip is_space (l ++ [45] ++ body ++ r) = 45 :: body).
      { apply (strip_unique l 45 body r); auto. exists (45 :: t), z. split; [now rewrite Eb|exact Hz]. }
      unfold py_int. rewrite ES. rewrite (proj2 (unsigned_iff body (decimal ds))); [reflexivity|]. exists ds. auto.
    + destruct (grouped_first _ _ G) as (c & t' & Ec & Hc).
      assert (ES : strip is_space (l ++ [] ++ body ++ r) = c :: t').
      { cbn [app]. rewrite Ec. apply (strip_unique l c t' r); auto. exists t, z. split; [now rewrite <- Ec|exact Hz]. }
      assert (c <> 45 /\ c <> 43) as [N1 N2] by (split; intros ->; rewrite digits_ok in Hc by lia; now apply Hc).
      rewrite (py_int_head c t' N1 N2 _ ES), <- Ec. apply unsigned_iff. exists ds. auto.
    + assert (ES : strip is_space (l ++ [43] ++ body ++ r) = 43 :: body).
      { apply (strip_unique l 43 body r); auto. exists (43 :: t), z. split; [now rewrite Eb|exact Hz]. }
      unfold py_int. rewrite ES. apply unsigned_iff. exists ds. auto.
Qed.
End Proofs.

(** ** Backtracking: the number of alternatives tried on a^n followed by a
    character that ends no name. *)
Section Backtrack.
Variable digit_value : Z -> option Z.
Hypothesis digits_ok : ascii_digits digit_value.
Notation nchar := (name_char digit_value).
Local Open Scope nat_scope.
Definition aaa (n : nat) : pystr := repeat 97%Z n ++ [33%Z].

Lemma nchar_a : nchar 97%Z = true.
Proof. reflexivity. Qed.
Lemma nchar_bang : nchar 33%Z = false.
Proof. unfold name_char, is_digit. rewrite digits_ok by lia. reflexivity. Qed.
Lemma aaa_length n : length (aaa n) = S n.
Proof. unfold aaa. rewrite app_length, repeat_length. cbn. lia. Qed.
Lemma seq_S_end' s m : seq s (S m) = seq s m ++ [s + m].
Proof. rewrite <- Nat.add_1_r, seq_app. reflexivity. Qed.

Lemma star_chars n : forall f, n < f -> star_fuel f (cls nchar) (aaa n) = map aaa (seq 0 (S n)).
Proof.
  induction n as [|n IH]; intros [|f] Hf; try lia.
  - cbn [star_fuel aaa repeat app cls]. rewrite nchar_bang. reflexivity.
  - cbn [star_fuel]. change (aaa (S n)) with (97%Z :: aaa n) at 1 2. cbn [cls]. rewrite nchar_a. cbn [flat_map length].
    rewrite (proj2 (Nat.ltb_lt _ _) (Nat.lt_succ_diag_r _)), app_nil_r, IH by lia.
    rewrite (seq_S_end' 0 (S n)), map_app. reflexivity.
Qed.
Lemma plus_chars n : plus (cls nchar) (aaa n) = map aaa (seq 0 n).
Proof.
  unfold plus, seq_re. destruct n as [|n].
  - cbn [aaa repeat app cls]. now rewrite nchar_bang.
  - change (aaa (S n)) with (97%Z :: aaa n). cbn [cls]. rewrite nchar_a. cbn [flat_map]. rewrite app_nil_r. unfold star. rewrite aaa_length. apply star_chars. lia.
Qed.
Lemma star_marks n : star (cls name_mark) (aaa n) = [aaa n].
Proof. unfold star. rewrite aaa_length. destruct n; reflexivity. Qed.
Lemma group_chars n : seq_re (plus (cls nchar)) (star (cls name_mark)) (aaa n) = map aaa (seq 0 n).
Proof.
  unfold seq_re at 1. rewrite plus_chars. induction (seq 0 n) as [|j l IH]; [reflexivity|].
  cbn [map flat_map]. now rewrite star_marks, IH.
Qed.
Fixpoint pow_sum (n : nat) : nat := match n with O => 0 | S k => pow_sum k + 2 ^ k end.
Lemma pow_sum_eq n : S (pow_sum n) = 2 ^ n.
Proof. induction n as [|n IH]; [reflexivity|]. cbn [pow_sum]. rewrite Nat.pow_succ_r'. lia. Qed.
Lemma star_groups : forall f n, n < f -> length (star_fuel f (seq_re (plus (cls nchar)) (star (cls name_mark))) (aaa n)) = 2 ^ n.
Proof.
  induction f as [|f IH]; intros n Hn; [lia|]. cbn [star_fuel]. rewrite app_length, group_chars. cbn [length].
  assert (G : forall m, m <= n -> length (flat_map (fun s' => if length s' <? length (aaa n) then
              star_fuel f (seq_re (plus (cls nchar)) (star (cls name_mark))) s' else []) (map aaa (seq 0 m))) = pow_sum m).
  { induction m as [|m IHm]; intros Hm; [reflexivity|]. rewrite seq_S_end', map_app, flat_map_app, app_length. cbn [pow_sum]. f_equal; [apply IHm; lia|].
    cbn [map flat_map]. rewrite Nat.add_0_l, app_nil_r. rewrite !aaa_length.
    rewrite (proj2 (Nat.ltb_lt (S m) (S n))) by lia. apply IH. lia. }
  rewrite G by lia. rewrite <- pow_sum_eq. lia.
Qed.
Lemma backtracking n : length (name_checker digit_value (aaa n)) = 2 ^ n - 1 /\ is_valid_param_name digit_value (aaa n) = false.
Proof.
  split.
  - unfold name_checker, plus at 1. unfold seq_re at 1. rewrite group_chars.
    assert (G : forall m, length (flat_map (star (seq_re (plus (cls nchar)) (star (cls name_mark)))) (map aaa (seq 0 m))) = pow_sum m).
    { induction m as [|m IHm]; [reflexivity|]. rewrite seq_S_end', map_app, flat_map_app, app_length. cbn [pow_sum]. f_equal; [exact IHm|].
      cbn [map flat_map]. rewrite Nat.add_0_l, app_nil_r. unfold star at 1. rewrite aaa_length. apply star_groups. lia. }
    rewrite G. rewrite <- pow_sum_eq. lia.
  - apply not_true_iff_false. rewrite valid_name by exact digits_ok. unfold documented_name.
    assert (NB : ~ letter_or_digit digit_value 33%Z) by (intros H; apply name_char_spec in H; rewrite nchar_bang in H; discriminate).
    assert (LAST : forall w x, aaa n = w ++ [x] -> x = 33%Z) by (intros w x H; unfold aaa in H; apply app_inj_tail in H; now destruct H).
    intros [(c & w & E & Hc & Hw)|(w & E & _)].
    + assert (I : In 33%Z (c :: w)) by (rewrite <- E; unfold aaa; apply in_or_app; right; now left).
      destruct I as [E0|I]; [rewrite E0 in Hc; now apply NB|]. destruct (Hw _ I) as [H|[H|H]]; [now apply NB|discriminate|discriminate].
    + apply LAST in E. discriminate.
Qed.
End Backtrack.

Lemma n_threads_spec : forall (digit_value : Z -> option Z) (is_space : Z -> bool) (max_digits : nat),
  ascii_digits digit_value -> ascii_spaces is_space -> (forall c, digit_value c <> None -> is_space c = false) ->
  forall (n_threads : option Z) (env : option pystr) (cpu_count : option Z),
  let r := get_n_threads digit_value is_space max_digits n_threads env cpu_count in
  match n_threads, env with
  | Some n, _ => r = Ok n
  | None, Some s =>
      (s = [] -> r = Ok 1) /\
      (s <> [] -> (forall n, r = Ok n <-> integer_literal digit_value is_space max_digits s n) /\
                  (r = Fail ValueError <-> forall n, ~ integer_literal digit_value is_space max_digits s n))
  | None, None => r = Ok (match cpu_count with Some n => if n =? 0 then 1 else n | None => 1 end)
  end.
Proof.
  intros dv sp md H1 H2 H3 [n|] env cpu; [reflexivity|]. cbn [get_n_threads]. destruct env as [s|].
  - split; [now intros ->|]. intros Hs. assert (P : forall n, py_int dv sp md s = Some n <-> integer_literal dv sp md s n) by (intros n; apply py_int_iff; auto; rewrite !H2 by lia; now split).
    destruct s as [|c s]; [contradiction|]. destruct (py_int dv sp md (c :: s)) as [m|].
    + split; [intros n; rewrite <- P; split; intros [= <-]; reflexivity|]. split; [discriminate|]. intros N. exfalso. apply (N m). now apply P.
    + split; [intros n; rewrite <- P; split; discriminate|]. split; [|reflexivity]. intros _ n L. apply P in L. discriminate.
  - destruct cpu as [[|p|p]|]; reflexivity.
Qed.
