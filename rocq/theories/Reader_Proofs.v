From Verif Require Import Base PyStr_Model PyStr_Spec PyStr_Proofs Mind_Model Mind_Spec Mind_Proofs Reader_Model Reader_Spec.
From Coq Require Import String.
From Coq Require Import List.
Local Open Scope Z_scope.

(** * Lines *)
Lemma lines_of_cons c s : c <> 10 ->
  lines_of (c :: s) = match lines_of s with [] => [[c]] | l :: ls => (c :: l) :: ls end.
Proof. intros N. cbn [lines_of]. now rewrite (proj2 (Z.eqb_neq c 10) N). Qed.
Lemma lines_of_nl s : lines_of (10 :: s) = [10] :: lines_of s.
Proof. reflexivity. Qed.
Lemma lines_of_word w : ~ In 10 w -> forall s, lines_of (w ++ 10 :: s) = (w ++ [10]) :: lines_of s.
Proof.
  induction w as [|c w IH]; intros N s; [reflexivity|]. cbn [app].
  rewrite lines_of_cons by (intros ->; apply N; now left). rewrite IH by (intros H; apply N; now right). reflexivity.
Qed.
Lemma lines_of_open w : open_line w -> lines_of w = [w].
Proof.
  intros [H N]. induction w as [|c w IH]; [contradiction|].
  rewrite lines_of_cons by (intros ->; apply N; now left).
  destruct w as [|d w]; [reflexivity|]. rewrite IH; [reflexivity | discriminate | intros X; apply N; now right].
Qed.
Lemma lines_of_full ls : Forall full_line ls -> forall s, lines_of (concat ls ++ s) = ls ++ lines_of s.
Proof.
  induction 1 as [|l ls (w & -> & N) _ IH]; intros s; [reflexivity|].
  cbn [concat app]. rewrite <- !app_assoc. cbn [app]. rewrite lines_of_word by auto. now rewrite IH.
Qed.
Lemma lines_of_spec file ls : file_lines file ls -> lines_of file = ls.
Proof.
  intros [-> [F | (ls' & l & -> & F & O)]].
  - rewrite <- (app_nil_r (concat ls)). rewrite lines_of_full by auto. apply app_nil_r.
  - rewrite concat_app. cbn [concat]. rewrite app_nil_r. rewrite lines_of_full by auto. now rewrite lines_of_open.
Qed.
Lemma split_line s : ~ In 10 s \/ exists w r, s = w ++ 10 :: r /\ ~ In 10 w.
Proof.
  induction s as [|c s [N | (w & r & -> & N)]]; [left; intros []| |].
  - destruct (Z.eq_dec c 10) as [->|D]; [right; exists [], s; auto | left; intros [H|H]; auto].
  - right. destruct (Z.eq_dec c 10) as [->|D]; [now exists [], (w ++ 10 :: r)|].
    exists (c :: w), r. split; [reflexivity | intros [H|H]; auto].
Qed.
Lemma file_lines_exist : forall n s, (length s <= n)%nat -> exists ls, file_lines s ls.
Proof.
  induction n as [|n IH]; intros s L.
  - destruct s; [|cbn in L; lia]. exists []. split; [reflexivity | left; constructor].
  - destruct (split_line s) as [N | (w & r & -> & N)].
    + destruct s as [|c s]; [exists []; split; [reflexivity | left; constructor]|].
      exists [c :: s]. split; [now cbn; rewrite app_nil_r|]. right. exists [], (c :: s). repeat split; auto. discriminate.
    + destruct (IH r) as (ls & E & H). { rewrite app_length in L. cbn in L. lia. }
      exists ((w ++ [10]) :: ls). split; [cbn; rewrite <- app_assoc; cbn; now rewrite E|].
      assert (W : full_line (w ++ [10])) by (exists w; auto).
      destruct H as [F | (ls' & l & -> & F & O)]; [left; now constructor | right].
      exists ((w ++ [10]) :: ls'), l. split; [reflexivity | split; [now constructor | auto]].
Qed.
Lemma file_lines_of file : file_lines file (lines_of file).
Proof.
  destruct (file_lines_exist _ file (le_n _)) as (ls & H). now rewrite (lines_of_spec file ls).
Qed.
Lemma file_lines_iff file ls : file_lines file ls <-> lines_of file = ls.
Proof. split; [apply lines_of_spec | intros <-; apply file_lines_of]. Qed.

(** * CiteULike *)
Lemma byte_tables : ascii_ok byte_digit byte_space.
Proof.
  split.
  - intros d H. unfold byte_digit. rewrite (proj2 (Z.leb_le 48 _)), (proj2 (Z.leb_le _ 57)) by lia. cbn [andb]. f_equal. lia.
  - intros c H. repeat destruct H as [<-|H]; reflexivity || destruct H.
  - split; reflexivity.
  - intros c H. unfold byte_space. lia.
Qed.
Lemma byte_ascii : ascii_digits byte_digit.
Proof. intros c H. reflexivity. Qed.

Section Cite.
Variable max_digits : nat.
Notation parse_int := (parse_int byte_digit byte_space max_digits).
Notation parse_ints := (parse_ints byte_digit byte_space max_digits).
Notation byte_int := (byte_int max_digits).
Lemma byte_int_iff w n : parse_int w = Ok n <-> byte_int w n.
Proof.
  unfold Mind_Model.parse_int, Reader_Spec.byte_int.
  rewrite <- (py_int_iff byte_digit byte_ascii byte_space max_digits).
  - destruct (py_int _ _ _ w) as [m|]; split; congruence.
  - split; reflexivity.
  - intros c. unfold byte_digit, byte_space. destruct (48 <=? c) eqn:A, (c <=? 57) eqn:B; cbn; try congruence. lia.
Qed.
Lemma parse_int_error w : (exists n, parse_int w = Ok n) \/ parse_int w = Fail ValueError.
Proof. unfold Mind_Model.parse_int. destruct (py_int _ _ _ w); eauto. Qed.
Lemma byte_ints_iff ws : forall ns, parse_ints ws = Ok ns <-> Forall2 byte_int ws ns.
Proof.
  induction ws as [|w ws IH]; intros ns; cbn [Mind_Model.parse_ints].
  - split; [intros [= <-]; constructor | now inversion 1].
  - unfold omap, obind. split.
    + destruct (parse_int w) as [n| | |] eqn:E; try discriminate. destruct (parse_ints ws) as [ms| | |] eqn:E'; try discriminate.
      intros [= <-]. constructor; [now apply byte_int_iff | now apply IH].
    + inversion 1 as [|? n ? ms H1 H2]; subst. apply byte_int_iff in H1. apply IH in H2. now rewrite H1, H2.
Qed.
Lemma parse_ints_error ws : (exists ns, parse_ints ws = Ok ns) \/ parse_ints ws = Fail ValueError.
Proof.
  induction ws as [|w ws IH]; [left; eexists; reflexivity|]. cbn [Mind_Model.parse_ints].
  destruct (parse_int_error w) as [[n ->] | ->]; [|now right]. cbn [obind].
  destruct IH as [[ns ->] | ->]; [left; eexists; reflexivity | now right].
Qed.
Lemma tokens_nil l : tokens byte_space l [] <-> blank_line l.
Proof. split; [now inversion 1 | now constructor]. Qed.
Lemma words_cases l : (words byte_space l = [] /\ blank_line l) \/ exists w ws, words byte_space l = w :: ws /\ tokens byte_space l (w :: ws).
Proof.
  pose proof (tokens_words byte_space l) as T. destruct (words byte_space l) as [|w ws] eqn:E.
  - left. split; auto. now apply tokens_nil.
  - right. exists w, ws. auto.
Qed.
Lemma user_line_not_blank l items : user_line max_digits l items -> ~ blank_line l.
Proof.
  intros (w & ws & T & _) B. apply tokens_nil in B. pose proof (tokens_unique _ _ _ _ T B). discriminate.
Qed.
(** One line. *)
Lemma cite_line_iff user cnt l cnt' rows : cite_line max_digits user cnt l = Ok (cnt', rows) <->
  (exists items, user_line max_digits l items /\ cnt' = Some (Z.of_nat (length items)) /\ rows = map (pair user) items) \/
  (blank_line l /\ cnt = Some 0 /\ cnt' = Some 0 /\ rows = []).
Proof.
  unfold cite_line. destruct (words_cases l) as [[E B] | (w & ws & E & T)]; rewrite E; cbn [obind].
  - cbn [fst snd]. split.
    + destruct cnt as [c|]; [|discriminate]. cbn. destruct (Z.eqb_spec c 0) as [->|]; [|discriminate].
      intros [= <- <-]. right. auto.
    + intros [(items & U & _) | (_ & -> & -> & ->)]; [now destruct (user_line_not_blank _ _ U)|]. reflexivity.
  - split.
    + destruct (parse_int w) as [c| | |] eqn:Ew; try discriminate. cbn [obind].
      destruct (parse_ints ws) as [items| | |] eqn:Ei; try discriminate. cbn.
      destruct (Z.eqb_spec c (Z.of_nat (length items))) as [->|]; [|discriminate]. intros [= <- <-].
      left. exists items. split; [|auto]. exists w, ws. split; auto. split; [now apply byte_int_iff | now apply byte_ints_iff].
    + intros [(items & (w' & ws' & T' & H1 & H2) & -> & ->) | (B & _)].
      * pose proof (tokens_unique _ _ _ _ T T') as [= <- <-].
        apply byte_int_iff in H1. apply byte_ints_iff in H2. rewrite H1, H2. cbn. now rewrite Z.eqb_refl.
      * apply tokens_nil in B. pose proof (tokens_unique _ _ _ _ T B). discriminate.
Qed.
Lemma cite_line_error user cnt l : (exists r, cite_line max_digits user cnt l = Ok r) \/
  cite_line max_digits user cnt l = Fail ValueError \/ cite_line max_digits user cnt l = Fail AssertionError \/
  (cite_line max_digits user cnt l = Fail UnboundLocal /\ cnt = None /\ blank_line l).
Proof.
  unfold cite_line. destruct (words_cases l) as [[E B] | (w & ws & E & T)]; rewrite E; cbn [obind].
  - destruct cnt as [c|]; cbn; [|auto 6]. destruct (c =? 0); eauto.
  - destruct (parse_int_error w) as [[c ->] | ->]; [|now auto]. cbn [obind].
    destruct (parse_ints_error ws) as [[items ->] | ->]; [|now auto]. cbn.
    destruct (c =? _); eauto.
Qed.

(** What the lines after a line that declared [cnt] items must look like. *)
Inductive follow : option Z -> list pystr -> list (list Z) -> Prop :=
| follow_nil cnt : follow cnt [] []
| follow_user cnt l ls items us : user_line max_digits l items -> follow (Some (Z.of_nat (length items))) ls us ->
    follow cnt (l :: ls) (items :: us)
| follow_blank l ls us : blank_line l -> follow (Some 0) ls us -> follow (Some 0) (l :: ls) ([] :: us).
Lemma rows_from_cons user items us : rows_from user (items :: us) = map (pair user) items ++ rows_from (user + 1) us.
Proof.
  unfold rows_from. cbn [length seq combine map concat fst snd]. f_equal; [now rewrite Z.add_0_r|].
  rewrite <- seq_shift, <- map_map with (g := fun x => x).
  f_equal. rewrite map_id. revert user. generalize 0%nat as k. induction us as [|x us IH]; intros k user; [reflexivity|].
  cbn [length seq map combine fst snd]. f_equal; [|apply IH].
  apply map_ext. intros a. f_equal. lia.
Qed.
Lemma cite_lines_iff ls : forall user cnt rows, cite_lines max_digits user cnt ls = Ok rows <->
  exists us, follow cnt ls us /\ rows = rows_from user us.
Proof.
  induction ls as [|l ls IH]; intros user cnt rows; cbn [cite_lines].
  - split; [intros [= <-]; exists []; split; [constructor | reflexivity] | intros (us & F & ->); now inversion F].
  - split.
    + destruct (cite_line max_digits user cnt l) as [[cnt' a]| | |] eqn:E; try discriminate. cbn [obind fst snd].
      destruct (cite_lines max_digits (user + 1) cnt' ls) as [b| | |] eqn:E'; try discriminate. cbn. intros [= <-].
      apply IH in E'. destruct E' as (us & F & ->). apply cite_line_iff in E.
      destruct E as [(items & U & -> & ->) | (B & -> & -> & ->)].
      * exists (items :: us). split; [now constructor | now rewrite rows_from_cons].
      * exists ([] :: us). split; [now constructor | now rewrite rows_from_cons].
    + intros (us & F & ->). inversion F as [|? ? ? items us' U F' | ? ? us' B F']; subst.
      * rewrite (proj2 (cite_line_iff user cnt l (Some (Z.of_nat (length items))) (map (pair user) items))) by (left; eauto).
        cbn [obind fst snd]. rewrite rows_from_cons. rewrite (proj2 (IH _ _ (rows_from (user + 1) us'))) by eauto. reflexivity.
      * rewrite (proj2 (cite_line_iff user (Some 0) l (Some 0) [])) by (right; auto).
        cbn [obind fst snd]. rewrite rows_from_cons. rewrite (proj2 (IH _ _ (rows_from (user + 1) us'))) by eauto. reflexivity.
Qed.
Definition reachable (cnt : option Z) (ls : list pystr) (us : list (list Z)) : Prop :=
  length us = length ls /\
  forall k l, nth_error ls k = Some l -> exists items, nth_error us k = Some items /\
    (stands_for max_digits ls k l items \/
     (cnt = Some 0 /\ items = [] /\ blank_line l /\ forall i x, (i < k)%nat -> nth_error ls i = Some x -> blank_line x)).
Lemma follow_iff ls : forall cnt us, follow cnt ls us <-> reachable cnt ls us.
Proof.
  induction ls as [|l ls IH]; intros cnt us.
  - split.
    + inversion 1; subst. split; [reflexivity | intros [|k] ?; discriminate].
    + intros [L _]. destruct us; [constructor | discriminate].
  - split.
    + inversion 1 as [|? ? ? items us' U F | ? ? us' B F]; subst; apply IH in F; destruct F as [L F].
      * split; [cbn; congruence|]. intros [|k] x E; cbn [nth_error] in *.
        -- injection E as <-. exists items. split; [reflexivity | left; now left].
        -- destruct (F k x E) as (it & En & [S | (C & -> & Bx & P)]); exists it || exists []; (split; [exact En|]).
           ++ left. destruct S as [S | (-> & Bx & j & l' & J & Ej & Uj & P)]; [now left | right].
              split; [reflexivity | split; [exact Bx|]]. exists (S j), l'. split; [lia | split; [exact Ej | split; [exact Uj|]]].
              intros [|i] y Hi Ey; [lia | apply (P i y); [lia | exact Ey]].
           ++ left. right. split; [reflexivity | split; [exact Bx|]]. exists 0%nat, l. split; [lia | split; [reflexivity|]].
              split. { destruct items; [exact U | discriminate]. }
              intros [|i] y Hi Ey; [lia | apply (P i y); [lia | exact Ey]].
      * split; [cbn; congruence|]. intros [|k] x E; cbn [nth_error] in *.
        -- injection E as <-. exists []. split; [reflexivity | right]. repeat split; auto. intros i y Hi. lia.
        -- destruct (F k x E) as (it & En & [S | (_ & -> & Bx & P)]); exists it || exists []; (split; [exact En|]).
           ++ left. destruct S as [S | (-> & Bx & j & l' & J & Ej & Uj & P)]; [now left | right].
              split; [reflexivity | split; [exact Bx|]]. exists (S j), l'. split; [lia | split; [exact Ej | split; [exact Uj|]]].
              intros [|i] y Hi Ey; [lia | apply (P i y); [lia | exact Ey]].
           ++ right. repeat split; auto. intros [|i] y Hi Ey; cbn in Ey; [congruence | apply (P i y); [lia | exact Ey]].
    + intros [L F]. destruct us as [|items us]; [discriminate|]. cbn in L. injection L as L.
      destruct (F 0%nat l eq_refl) as (it & [= <-] & H).
      assert (T : forall cnt', (forall items', user_line max_digits l items' -> cnt' = Some (Z.of_nat (length items'))) ->
                   (blank_line l -> cnt = Some 0 -> cnt' = Some 0) -> (~ blank_line l \/ cnt = Some 0) -> reachable cnt' ls us).
      { intros cnt' H1 H2 NB. split; [exact L|]. intros k x E. destruct (F (S k) x E) as (it & En & G). exists it. split; [exact En|].
        destruct G as [[G | (-> & Bx & j & l' & J & Ej & Uj & P)] | (C & -> & Bx & P)].
        - left. now left.
        - destruct j as [|j]; cbn in Ej.
          + injection Ej as <-. right. pose proof (H1 _ Uj) as C. repeat split; auto. intros i y Hi Ey. apply (P (S i) y); [lia | exact Ey].
          + left. right. split; [reflexivity | split; [exact Bx|]]. exists j, l'. split; [lia | split; [exact Ej | split; [exact Uj|]]].
            intros i y Hi Ey. apply (P (S i) y); [lia | exact Ey].
        - right. assert (Bl : blank_line l) by (apply (P 0%nat l); [lia | reflexivity]).
          repeat split; auto. intros i y Hi Ey. apply (P (S i) y); [lia | exact Ey]. }
      destruct H as [[U | (-> & B & j & l' & J & _)] | (-> & -> & B & _)]; [|lia|].
      * constructor; [exact U|]. apply IH. pose proof (user_line_not_blank _ _ U). apply T; auto; [|contradiction].
        intros items' U'. do 2 f_equal.
        destruct U as (w & ws & T1 & _ & F1), U' as (w' & ws' & T2 & _ & F2).
        pose proof (tokens_unique _ _ _ _ T1 T2) as [= <- <-]. apply byte_ints_iff in F1, F2. rewrite F1 in F2. now injection F2 as <-.
      * constructor; [exact B|]. apply IH. apply T; auto. intros items' U'. now destruct (user_line_not_blank _ _ U').
Qed.
Lemma cite_read_iff file rows : cite_read max_digits file = Ok rows <->
  exists ls users, file_lines file ls /\ length users = length ls /\ rows = rows_from 0 users /\
    forall k l, nth_error ls k = Some l -> exists items, nth_error users k = Some items /\ stands_for max_digits ls k l items.
Proof.
  unfold cite_read. rewrite cite_lines_iff. split.
  - intros (us & F & ->). exists (lines_of file), us. split; [apply file_lines_of|]. apply follow_iff in F. destruct F as [L F].
    split; [exact L | split; [reflexivity|]]. intros k l E. destruct (F k l E) as (it & En & [S | (C & _)]); [eauto | discriminate].
  - intros (ls & us & H & L & -> & F). apply lines_of_spec in H. subst ls. exists us. split; [|reflexivity].
    apply follow_iff. split; [exact L|]. intros k l E. destruct (F k l E) as (it & En & S). eauto.
Qed.
Lemma cite_lines_error ls : forall user cnt, (exists rows, cite_lines max_digits user cnt ls = Ok rows) \/
  cite_lines max_digits user cnt ls = Fail ValueError \/ cite_lines max_digits user cnt ls = Fail AssertionError \/
  (cite_lines max_digits user cnt ls = Fail UnboundLocal /\ cnt = None /\ exists l ls', ls = l :: ls' /\ blank_line l).
Proof.
  induction ls as [|l ls IH]; intros user cnt; [left; now exists []|]. cbn [cite_lines].
  destruct (cite_line_error user cnt l) as [[[cnt' a] E] | [E | [E | (E & C & B)]]]; rewrite E; cbn [obind fst snd]; auto.
  - destruct (IH (user + 1) cnt') as [[rows E'] | [E' | [E' | (E' & C & _)]]]; rewrite ?E'; cbn; eauto.
    subst cnt'. apply cite_line_iff in E. now destruct E as [(? & _ & ? & _) | (_ & _ & ? & _)].
  - right. right. right. split; [reflexivity | eauto].
Qed.
Lemma cite_read_error file : (exists rows, cite_read max_digits file = Ok rows) \/
  cite_read max_digits file = Fail ValueError \/ cite_read max_digits file = Fail AssertionError \/
  (cite_read max_digits file = Fail UnboundLocal /\ exists l ls, file_lines file (l :: ls) /\ blank_line l).
Proof.
  unfold cite_read. destruct (cite_lines_error (lines_of file) 0 None) as [H | [H | [H | (H & _ & l & ls & E & B)]]]; auto.
  right. right. right. split; auto. exists l, ls. rewrite <- E. split; [apply file_lines_of | exact B].
Qed.

(** ** Written files *)
Lemma number_solid w : ascii_number w -> w <> [] /\ Forall (fun c => byte_space c = false) w.
Proof. intros [N F]. split; [exact N|]. eapply Forall_impl; [|exact F]. cbn. intros c H. apply (ao_solid _ _ byte_tables). lia. Qed.
Lemma number_literal w : ascii_number w -> (length w <= max_digits)%nat -> byte_int w (value w).
Proof. intros A L. apply byte_int_iff. now apply parse_number; [apply byte_tables| |]. Qed.
Lemma tokens_written ws : Forall ascii_number ws -> tokens byte_space (flat_map (fun x => 32 :: x) ws ++ [10]) ws.
Proof.
  induction 1 as [|w ws A _ IH]; cbn [flat_map app]; [constructor; repeat constructor|].
  destruct (number_solid w A) as [N S]. rewrite <- app_assoc.
  apply (tokens_more byte_space [32] w (flat_map (fun x => 32 :: x) ws ++ [10])); auto.
  intros c. destruct ws; cbn; intros [= <-]; reflexivity.
Qed.
Lemma written_line items l : written max_digits items l -> full_line l /\ user_line max_digits l items.
Proof.
  intros (w & ws & [A V] & F & D & ->). inversion D as [|? ? Dw Dws]; subst.
  assert (Fa : Forall ascii_number ws). { clear - F. induction F as [|? ? ? ? [H _]]; constructor; auto. }
  split.
  - exists (w ++ flat_map (fun x => 32 :: x) ws). split; [now rewrite app_assoc|].
    assert (No : forall x, ascii_number x -> ~ In 10 x). { intros x [_ X] I. rewrite Forall_forall in X. specialize (X _ I). lia. }
    rewrite in_app_iff, in_flat_map. intros [I | (x & I & [E | J])]; [now apply (No w) | discriminate|].
    rewrite Forall_forall in Fa. now apply (No x); [apply Fa|].
  - exists w, ws. split.
    + destruct (number_solid w A) as [N S]. apply (tokens_more byte_space [] w); auto.
      * intros c. destruct ws; cbn; intros [= <-]; reflexivity.
      * now apply tokens_written.
    + rewrite <- V. split; [now apply number_literal|]. clear - F Dws. induction F as [|n x ns xs [A <-] F IH]; constructor.
      * inversion Dws; subst. now apply number_literal.
      * apply IH. now inversion Dws.
Qed.
Lemma cite_roundtrip users ls : Forall2 (written max_digits) users ls -> cite_read max_digits (concat ls) = Ok (rows_from 0 users).
Proof.
  intros F. apply cite_read_iff. exists ls, users. split; [|split; [|split; [reflexivity|]]].
  - split; [reflexivity | left]. induction F as [|? ? ? ? H]; constructor; auto. now apply written_line in H.
  - now induction F; cbn; congruence.
  - intros k l E. clear - E F. assert (exists items, nth_error users k = Some items /\ user_line max_digits l items) as (items & En & U).
    { revert k E. induction F as [|u x us xs H F IH]; intros [|k] E; try discriminate; cbn in *.
      - injection E as <-. exists u. split; [reflexivity | now apply written_line in H].
      - now apply IH. }
    exists items. split; [exact En | now left].
Qed.
End Cite.

(** * Ratings *)
Lemma split_on_word sep w : forall rest, ~ In sep w -> (rest = [] \/ exists r, rest = sep :: r) ->
  split_on sep (w ++ rest) = match rest with [] => [w] | _ :: r => w :: split_on sep r end.
Proof.
  induction w as [|c w IH]; intros rest N R; cbn [app].
  - destruct R as [-> | [r ->]]; cbn [split_on]; [reflexivity | now rewrite Z.eqb_refl].
  - cbn [split_on]. rewrite (proj2 (Z.eqb_neq c sep)) by (intros ->; apply N; now left).
    rewrite IH; auto; [|intros I; apply N; now right]. destruct R as [-> | [r ->]]; reflexivity.
Qed.
Lemma split_joined_fields fs : fs <> [] -> Forall (fun f => ~ In 58 f) fs -> split_on 58 (joined fs) = fs.
Proof.
  intros N F. induction F as [|f fs H F IH]; [contradiction|]. destruct fs as [|g fs].
  - cbn [joined]. rewrite <- (app_nil_r f). rewrite split_on_word; auto. now rewrite app_nil_r.
  - change (joined (f :: g :: fs)) with (f ++ 58 :: joined (g :: fs)). rewrite split_on_word; auto; [|right; eauto].
    f_equal. apply IH. discriminate.
Qed.
Lemma fields_split c : fields c (split_on 58 c).
Proof.
  induction c as [|x c (N & J & F)]; cbn [split_on].
  - split; [discriminate | split; [reflexivity | repeat constructor; auto]].
  - destruct (Z.eqb_spec x 58) as [->|D].
    + split; [discriminate|]. split; [|constructor; auto]. destruct (split_on 58 c) eqn:E; [contradiction|].
      change (joined ([] :: p :: l)) with (58 :: joined (p :: l)). now rewrite J.
    + destruct (split_on 58 c) as [|f fs]; [contradiction|]. split; [discriminate|]. inversion F; subst. split.
      * destruct fs; reflexivity.
      * constructor; auto. intros [E|I]; [congruence | contradiction].
Qed.
Lemma fields_iff c fs : fields c fs <-> split_on 58 c = fs.
Proof.
  split; [|intros <-; apply fields_split]. intros (N & <- & F). now apply split_joined_fields.
Qed.
Lemma chomp_word w : ~ In 10 w -> chomp w = w.
Proof.
  induction w as [|c w IH]; intros N; [reflexivity|]. unfold chomp in *. cbn [filter].
  rewrite (proj2 (Z.eqb_neq c 10)) by (intros ->; apply N; now left). cbn. f_equal. apply IH. intros I. apply N. now right.
Qed.
Lemma chomp_spec l c : (l = c ++ [10] \/ l = c) -> ~ In 10 c -> chomp l = c.
Proof.
  intros [-> | ->] N; [|now apply chomp_word]. unfold chomp. rewrite filter_app. cbn.
  rewrite app_nil_r. now apply chomp_word.
Qed.
Lemma filter_ext' {A} (p q : A -> bool) l : (forall x, p x = q x) -> filter p l = filter q l.
Proof. intros H. induction l as [|x l IH]; [reflexivity|]. cbn. now rewrite H, IH. Qed.
Lemma blank_not c : negb (blank c) = existsb (fun x => negb ((x =? 32) || (x =? 9))) c.
Proof.
  unfold blank. induction c as [|x c IH]; [reflexivity|]. cbn [forallb existsb]. now rewrite negb_andb, IH.
Qed.
Lemma table_lines_iff file cs : table_lines file cs <-> filter (fun l => negb (blank l)) (map chomp (lines_of file)) = cs.
Proof.
  rewrite (filter_ext' _ _ _ blank_not). split.
  - intros (raw & all & L & F & ->). apply lines_of_spec in L. rewrite L. f_equal.
    clear L. induction F as [|l c ls cs' [H N] F IH]; [reflexivity|]. cbn [map]. rewrite (chomp_spec l c) by auto. now rewrite IH.
  - intros <-. exists (lines_of file), (map chomp (lines_of file)). split; [apply file_lines_of|]. split; [|reflexivity].
    pose proof (file_lines_of file) as [_ H]. assert (G : Forall (fun l => full_line l \/ open_line l) (lines_of file)).
    { destruct H as [H | (ls & l & -> & H & O)].
      - eapply Forall_impl; [|exact H]. auto.
      - apply Forall_app. split; [|auto]. eapply Forall_impl; [|exact H]. auto. }
    clear H. revert G. generalize (lines_of file) as raw.
    induction 1 as [|l ls [(w & -> & N) | [_ N]] G IH]; cbn [map]; [constructor| |]; (constructor; [|exact IH]).
    + rewrite (chomp_spec (w ++ [10]) w) by auto. auto.
    + rewrite chomp_word by auto. auto.
Qed.
Section Ratings.
Variable is_na : pystr -> bool.
Notation good_rating := (good_rating is_na).
Lemma cell_column fs n k : (length fs <= n)%nat -> column is_na fs k (nth k (pad n (map (cell is_na) fs)) None).
Proof.
  intros L. unfold column, pad. destruct (nth_error fs k) as [f|] eqn:E.
  - assert (K : (k < length fs)%nat) by (apply nth_error_Some; congruence).
    rewrite app_nth1 by (now rewrite map_length). rewrite (nth_indep _ None (cell is_na [])) by (now rewrite map_length).
    rewrite map_nth. rewrite (nth_error_nth _ _ _ E). unfold cell. destruct f as [|c f]; [right; auto|].
    destruct (is_na (c :: f)) eqn:N; [right; auto | left]. repeat split; auto. discriminate.
  - apply nth_error_None in E. rewrite app_nth2 by (rewrite map_length; lia). apply nth_repeat.
Qed.
Lemma column_unique fs k x y : column is_na fs k x -> column is_na fs k y -> x = y.
Proof.
  unfold column. destruct (nth_error fs k); [|congruence].
  intros [(-> & ? & ?) | (-> & [? | ?])] [(-> & ? & ?) | (-> & [? | ?])]; congruence.
Qed.
Lemma row_columns fs n row : (length fs <= n)%nat ->
  (columns_0246 (pad n (map (cell is_na) fs)) = row <-> rating_columns is_na fs row).
Proof.
  intros L. destruct row as [[[u m] r] t]. unfold columns_0246, rating_columns.
  pose proof (cell_column fs n) as C. split.
  - intros [= <- <- <- <-]. auto.
  - intros (H0 & H2 & H4 & H6). f_equal; [f_equal; [f_equal|]|]; eapply column_unique; eauto.
Qed.
Lemma ratings_iff file rows : read_ratings is_na file = Ok rows <->
  exists cs first fss, table_lines file cs /\ Forall2 fields cs (first :: fss) /\ (7 <= length first)%nat /\
    Forall (fun fs => (length fs <= length first)%nat) fss /\
    Forall2 (rating_columns is_na) (first :: fss) rows.
Proof.
  unfold read_ratings, read_csv. remember (filter (fun l => negb (blank l)) (map chomp (lines_of file))) as cs eqn:E.
  symmetry in E. apply table_lines_iff in E.
  assert (SF : forall cs fss, Forall2 fields cs fss <-> map (split_on 58) cs = fss).
  { induction cs0 as [|c cs0 IH]; intros fss; cbn.
    - split; [now inversion 1 | intros <-; constructor].
    - split; [inversion 1 as [|? ? ? ? H1 H2]; subst; apply fields_iff in H1; apply IH in H2; congruence|].
      intros <-. constructor; [now apply fields_iff | now apply IH]. }
  assert (U : forall cs', table_lines file cs' -> cs' = cs).
  { intros cs' H. apply table_lines_iff in H, E. congruence. }
  assert (RC : forall n fss rows, Forall (fun fs => (length fs <= n)%nat) fss ->
     (map columns_0246 (map (fun x => pad n (map (cell is_na) x)) fss) = rows <-> Forall2 (rating_columns is_na) fss rows)).
  { intros n fss. induction fss as [|fs fss IH]; intros rs F; cbn.
    - split; [intros <-; constructor | now inversion 1].
    - inversion F; subst. split.
      + intros <-. constructor; [now apply (row_columns fs n) | now apply IH].
      + inversion 1 as [|? ? ? ? A1 A2]; subst. f_equal; [now apply row_columns | now apply IH]. }
  destruct (map (split_on 58) cs) as [|first fss] eqn:M.
  - split; [discriminate|]. intros (cs' & first & fss & T & F & _). rewrite (U _ T) in F. apply SF in F. congruence.
  - destruct (existsb (fun x => (length first <? length x)%nat) (first :: fss)) eqn:X.
    + split; [discriminate|]. intros (cs' & first' & fss' & T & F & _ & L & _). rewrite (U _ T) in F. apply SF in F.
      rewrite M in F. injection F as <- <-. apply existsb_exists in X. destruct X as (x & I & Lx). apply Nat.ltb_lt in Lx.
      destruct I as [<-|I]; [lia|]. rewrite Forall_forall in L. specialize (L x I). lia.
    + assert (L : Forall (fun fs => (length fs <= length first)%nat) (first :: fss)).
      { apply Forall_forall. intros x I. destruct (le_lt_dec (length x) (length first)) as [|G]; auto.
        assert (Y : existsb (fun x => (length first <? length x)%nat) (first :: fss) = true) by (apply existsb_exists; exists x; split; auto; now apply Nat.ltb_lt).
        congruence. }
      cbn [obind fst snd]. destruct (Nat.leb_spec (length first) 6) as [S|S].
      * split; [discriminate|]. intros (cs' & first' & fss' & T & F & G & _). rewrite (U _ T) in F. apply SF in F.
        rewrite M in F. injection F as <- <-. lia.
      * split.
        -- intros [= R]. exists cs, first, fss. split; [exact E|]. split; [now apply SF|]. split; [lia|].
           split; [now inversion L|]. now apply (RC (length first)).
        -- intros (cs' & first' & fss' & T & F & _ & _ & R). rewrite (U _ T) in F. apply SF in F.
           rewrite M in F. injection F as <- <-. f_equal. now apply (RC (length first)).
Qed.
Lemma ratings_error file : (exists rows, read_ratings is_na file = Ok rows) \/
  read_ratings is_na file = Fail ValueError \/ read_ratings is_na file = Fail KeyError.
Proof.
  unfold read_ratings, read_csv. destruct (map (split_on 58) _) as [|r rows]; [now right; left|].
  destruct (existsb _ _); [now right; left|]. cbn [obind fst snd]. destruct (_ <=? 6)%nat; eauto.
Qed.
Lemma plain_no s c : plain_field is_na s -> In c [10; 13; 34; 58] -> ~ In c s.
Proof. intros (_ & _ & H) I J. now apply (H c). Qed.
Definition seven (e : pystr * pystr * pystr * pystr) : list pystr := let '(u, m, r, t) := e in [u; []; m; []; r; []; t].
Lemma rating_fields e : good_rating e -> full_line (line_of_rating e) /\
  exists c, line_of_rating e = c ++ [10] /\ ~ In 10 c /\ fields c (seven e) /\
    (existsb (fun x => negb ((x =? 32) || (x =? 9))) c = true).
Proof.
  destruct e as [[[u m] r] t]. intros (U & M & R & T). cbn [line_of_rating seven].
  assert (E : rating_line u m r t = joined [u; []; m; []; r; []; t] ++ [10]).
  { unfold rating_line. cbn [joined app]. rewrite <- !app_assoc. cbn [app]. repeat (rewrite <- ?app_assoc; cbn [app]). reflexivity. }
  assert (N : ~ In 10 (joined [u; []; m; []; r; []; t])).
  { pose proof (plain_no u 10 U (or_introl eq_refl)) as H1. pose proof (plain_no m 10 M (or_introl eq_refl)) as H2. pose proof (plain_no r 10 R (or_introl eq_refl)) as H3. pose proof (plain_no t 10 T (or_introl eq_refl)) as H4.
    intros I. cbn [joined] in I. repeat (apply in_app_or in I; destruct I as [I|I]); auto; cbn in I; intuition discriminate. }
  split; [eexists; split; [exact E | exact N]|]. eexists. split; [exact E|]. split; [exact N|]. split.
  - split; [discriminate | split; [reflexivity|]].
    repeat (apply Forall_cons || apply Forall_nil); try (now intros []); apply plain_no; auto; cbn; auto.
  - apply existsb_exists. exists 58. split; [|reflexivity]. cbn [joined]. apply in_or_app. right. cbn. auto.
Qed.
Lemma ratings_roundtrip e es : good_rating e -> Forall good_rating es ->
  read_ratings is_na (flat_map line_of_rating (e :: es)) = Ok (map row_of_rating (e :: es)).
Proof.
  intros G Gs. assert (F : Forall good_rating (e :: es)) by now constructor. clear G Gs. apply ratings_iff.
  assert (X : exists cs, Forall2 (fun l c => (l = c ++ [10] \/ l = c) /\ ~ In 10 c) (map line_of_rating (e :: es)) cs /\
     filter (fun c => existsb (fun x => negb ((x =? 32) || (x =? 9))) c) cs = cs /\ Forall2 fields cs (map seven (e :: es))).
  { induction F as [|x xs H F (cs & F1 & F2 & F3)]; [exists []; repeat split; constructor|].
    destruct (rating_fields x H) as (_ & c & E & N & Fc & B). exists (c :: cs). cbn [map]. split; [constructor; auto|].
    split; [cbn [filter]; now rewrite B, F2 | now constructor]. }
  destruct X as (cs & F1 & F2 & F3). exists cs, (seven e), (map seven es). split.
  { exists (map line_of_rating (e :: es)), cs. split; [|auto]. split; [now rewrite flat_map_concat_map|]. left.
    apply Forall_map. eapply Forall_impl; [|exact F]. intros x H. now apply rating_fields. }
  split; [exact F3|]. assert (L : forall x, length (seven x) = 7%nat) by (intros [[[? ?] ?] ?]; reflexivity). rewrite L. split; [lia|].
  split; [apply Forall_map, Forall_forall; intros x _; rewrite L; lia|].
  change (seven e :: map seven es) with (map seven (e :: es)). clear F1 F2 F3. induction F as [|x xs H F IH]; cbn [map]; constructor; auto.
  destruct x as [[[u m] r] t]. destruct H as ((U1 & U2 & _) & (M1 & M2 & _) & (R1 & R2 & _) & (T1 & T2 & _)).
  cbn. repeat split; left; auto.
Qed.
End Ratings.

(** * Release years *)
Lemma digit_iff c : is_digit byte_digit c = true <-> 48 <= c <= 57.
Proof.
  unfold is_digit, byte_digit. destruct (48 <=? c) eqn:A, (c <=? 57) eqn:B; cbn; split; try discriminate; try reflexivity; lia.
Qed.
Lemma star_cls p : consumes (star (cls p)) (fun w => Forall (fun c => p c = true) w).
Proof.
  eapply consumes_ext; [apply star_consumes; [apply cls_consumes | intros w (c & -> & _); discriminate]|].
  intros w. rewrite many_cls. now rewrite Forall_forall.
Qed.
Lemma plus_digits : consumes (plus (cls (is_digit byte_digit))) ascii_number.
Proof.
  eapply consumes_ext; [apply plus_consumes; [apply cls_consumes | intros w (c & -> & _); discriminate]|].
  intros w. split.
  - intros (u & v & -> & (c & -> & D) & M). apply many_cls in M || rewrite many_cls in M. split; [discriminate|].
    apply digit_iff in D. constructor; [exact D|]. apply Forall_forall. intros x I. apply digit_iff. now apply M.
  - intros [N F]. destruct w as [|c w]; [contradiction|]. inversion F; subst. exists [c], w. split; [reflexivity|].
    split; [exists c; split; [reflexivity | now apply digit_iff]|]. apply many_cls. intros x I. apply digit_iff.
    rewrite Forall_forall in H2. now apply H2.
Qed.
Lemma captures_iff a P s w r : consumes a P -> (In (w, r) (captures a s) <-> s = w ++ r /\ P w).
Proof.
  intros C. unfold captures. rewrite in_map_iff. split.
  - intros (x & [= <- <-] & I). apply C in I. destruct I as (v & -> & H).
    rewrite app_length. replace (length v + length x - length x)%nat with (length v) by lia.
    rewrite firstn_app, Nat.sub_diag, firstn_all. cbn. rewrite app_nil_r. auto.
  - intros (-> & H). exists r. split; [|apply C; eauto].
    rewrite app_length. replace (length w + length r - length r)%nat with (length w) by lia.
    rewrite firstn_app, Nat.sub_diag, firstn_all. cbn. now rewrite app_nil_r.
Qed.
Lemma expect_iff c s r : expect c s = Some r <-> s = c :: r.
Proof.
  unfold expect. destruct s as [|x s]; [split; discriminate|]. destruct (x =? c) eqn:E; split; try discriminate.
  - intros [= <-]. apply Z.eqb_eq in E. now subst.
  - now intros [= -> ->].
  - intros [= -> ->]. now rewrite Z.eqb_refl in E.
Qed.
Lemma blanks_end s : existsb at_end (star (cls latin_space) s) = true <-> Forall (fun c => latin_space c = true) s.
Proof.
  rewrite existsb_exists. split.
  - intros (r & I & E). apply star_cls in I. destruct I as (w & -> & F). apply Forall_app. split; [exact F|].
    destruct r as [|c r]; [constructor|]. apply at_end_newline in E. rewrite E. now repeat constructor.
  - intros F. exists []. split; [|reflexivity]. apply star_cls. exists s. split; [now rewrite app_nil_r | exact F].
Qed.
Definition candidates_of (title : pystr) : list pystr :=
  flat_map (fun r1 =>
       match expect 40 r1 with
       | Some r2 =>
           flat_map (fun c =>
             match expect 41 (snd c) with
             | Some r4 => if existsb at_end (star (cls latin_space) r4) then [fst c] else []
             | None => []
             end) (captures (plus (cls (is_digit byte_digit))) r2)
       | None => []
       end) (star (cls (fun c => negb (c =? 10))) title).
Lemma candidates_iff title d : In d (candidates_of title) <-> ends_with_year title d.
Proof.
  unfold candidates_of. rewrite in_flat_map. split.
  - intros (r1 & I & H). apply star_cls in I. destruct I as (name & -> & Fn).
    destruct (expect 40 r1) as [r2|] eqn:E1; [|destruct H]. apply expect_iff in E1. subst r1.
    apply in_flat_map in H. destruct H as ([d' r3] & C & H). apply (captures_iff _ _ _ _ _ plus_digits) in C.
    destruct C as [-> A]. cbn [fst snd] in H. destruct (expect 41 r3) as [r4|] eqn:E2; [|destruct H]. apply expect_iff in E2. subst r3.
    destruct (existsb at_end _) eqn:X; [|destruct H]. destruct H as [<-|[]]. apply blanks_end in X.
    exists name, r4. split; [reflexivity|]. split; [|auto]. intros I. rewrite Forall_forall in Fn. now specialize (Fn 10 I).
  - intros (name & blanks & -> & N & A & B). exists (40 :: d ++ [41] ++ blanks). split.
    + apply star_cls. exists name. split; [reflexivity|]. apply Forall_forall. intros c I.
      destruct (Z.eqb_spec c 10) as [->|]; [contradiction | reflexivity].
    + rewrite (proj2 (expect_iff 40 _ _) eq_refl). apply in_flat_map. exists (d, 41 :: blanks).
      split; [now apply (captures_iff _ _ _ _ _ plus_digits)|]. cbn [fst snd]. rewrite (proj2 (expect_iff 41 _ _) eq_refl).
      rewrite (proj2 (blanks_end blanks) B). now left.
Qed.
Lemma first_other {A} (p : A -> Prop) a c x : forall a' c' x', Forall p a -> Forall p a' -> ~ p c -> ~ p c' ->
  a ++ c :: x = a' ++ c' :: x' -> a = a' /\ c = c' /\ x = x'.
Proof.
  induction a as [|y a IH]; intros [|y' a'] c' x' F F' N N' E; cbn in E.
  - injection E as <- <-. auto.
  - injection E as -> _. inversion F'; contradiction.
  - injection E as -> _. inversion F; contradiction.
  - injection E as -> E. inversion F; inversion F'; subst. destruct (IH a' c' x') as (-> & -> & ->); auto.
Qed.
Lemma year_unique title d d' : ends_with_year title d -> ends_with_year title d' -> d = d'.
Proof.
  intros (n & b & E & _ & [_ D] & B) (n' & b' & E' & _ & [_ D'] & B'). rewrite E in E'. clear E.
  apply (f_equal (@rev Z)) in E'. rewrite !rev_app_distr in E'. cbn [rev app] in E'. rewrite <- !app_assoc in E'. cbn [app] in E'.
  apply (first_other (fun c => latin_space c = true)) in E'; try (now apply Forall_rev); try discriminate.
  destruct E' as (_ & _ & E).
  apply (first_other (fun c => 48 <= c <= 57)) in E; try (now apply Forall_rev); try lia.
  destruct E as (E & _). apply (f_equal (@rev Z)) in E. now rewrite !rev_involutive in E.
Qed.
Lemma release_digits_iff title d : release_digits title = Some d <-> ends_with_year title d.
Proof.
  change (release_digits title) with (hd_error (candidates_of title)). split.
  - intros H. apply candidates_iff. destruct (candidates_of title); [discriminate|]. injection H as <-. now left.
  - intros H. pose proof (proj2 (candidates_iff title d) H) as I. destruct (candidates_of title) as [|d' l] eqn:E; [destruct I|].
    cbn. f_equal. apply (year_unique title); auto. apply candidates_iff. rewrite E. now left.
Qed.
Lemma release_year_iff title n : release_year title = Some n <-> exists d, ends_with_year title d /\ n = value d.
Proof.
  unfold release_year. destruct (release_digits title) as [d|] eqn:E.
  - apply release_digits_iff in E. rewrite horner_value. split.
    + intros [= <-]. eauto.
    + intros (d' & H & ->). now rewrite (year_unique title d d').
  - split; [discriminate|]. intros (d & H & _). apply release_digits_iff in H. congruence.
Qed.

(** * Genres *)
Lemma all_digits s : existsb (fun r : pystr => match r with [] => true | _ => false end) (plus (cls (is_digit byte_digit)) s) = true <-> ascii_number s.
Proof.
  rewrite existsb_exists. split.
  - intros ([|c r] & I & E); [|discriminate]. apply plus_digits in I. destruct I as (w & -> & H). now rewrite app_nil_r.
  - intros H. exists []. split; [|reflexivity]. apply plus_digits. exists s. now rewrite app_nil_r.
Qed.
Lemma bar_no_digit d : ascii_number d -> ~ In 124 d.
Proof. intros [_ F] I. rewrite Forall_forall in F. specialize (F _ I). cbn in F. lia. Qed.
Lemma numbered_tail c w : (exists n d, ascii_number d /\ c :: w = n ++ [124] ++ d) <->
  (c = 124 /\ ascii_number w) \/ exists n d, ascii_number d /\ w = n ++ [124] ++ d.
Proof.
  split.
  - intros ([|x n] & d & A & E); cbn in E; injection E as -> ->; [now left | right; now exists n, d].
  - intros [[-> A] | (n & d & A & ->)]; [now exists [], w | now exists (c :: n), d].
Qed.
Lemma drop_number_spec w : unnumbered w (drop_number w).
Proof.
  induction w as [|c w IH]; cbn [drop_number].
  - right. split; [reflexivity|]. intros ([|x n] & d & _ & E); discriminate.
  - destruct ((c =? 124) && _) eqn:E.
    + apply andb_true_iff in E. destruct E as [E1 E2]. apply Z.eqb_eq in E1. subst c. apply all_digits in E2. left. now exists w.
    + assert (N : ~ (c = 124 /\ ascii_number w)).
      { intros [-> A]. apply all_digits in A. cbn [Z.eqb Pos.eqb andb] in E. discriminate (eq_trans (eq_sym E) A). }
      destruct IH as [(d & A & IH) | [IH NN]].
      * left. exists d. split; [exact A|]. cbn [app]. f_equal. exact IH.
      * right. split; [now rewrite IH|]. rewrite numbered_tail. tauto.
Qed.
Lemma unnumbered_unique w a b : unnumbered w a -> unnumbered w b -> a = b.
Proof.
  intros [(d & A & ->) | [-> N]] [(d' & A' & E) | [-> N']].
  - apply (f_equal (@rev Z)) in E. rewrite !rev_app_distr in E. cbn [rev app] in E. rewrite <- !app_assoc in E. cbn [app] in E.
    destruct A as [_ A], A' as [_ A'].
    apply (first_other (fun c => 48 <= c <= 57)) in E; try (now apply Forall_rev); try lia.
    destruct E as (_ & _ & E). apply (f_equal (@rev Z)) in E. now rewrite !rev_involutive in E.
  - destruct N'. eauto.
  - destruct N. eauto.
  - reflexivity.
Qed.
Lemma drop_number_iff w n : drop_number w = n <-> unnumbered w n.
Proof. split; [intros <-; apply drop_number_spec | intros H; eapply unnumbered_unique; [apply drop_number_spec | exact H]]. Qed.
Lemma strip_solid s : Forall (fun c => latin_space c = false) s -> strip latin_space s = s.
Proof.
  intros F. unfold strip. rewrite (lstrip_solid latin_space s).
  2:{ destruct s; [discriminate|]. intros x [= <-]. now inversion F. }
  rewrite lstrip_solid; [apply rev_involutive|].
  intros x E. assert (I : In x (rev s)) by (destruct (rev s); [discriminate | injection E as <-; now left]).
  apply in_rev in I. rewrite Forall_forall in F. now apply F.
Qed.
Lemma tokens_solid s ws : tokens latin_space s ws -> Forall (fun w => Forall (fun c => latin_space c = false) w) ws.
Proof. induction 1; constructor; auto. Qed.
Lemma read_genre_iff file names : read_genre file = names <->
  exists ws, tokens latin_space file ws /\ Forall2 unnumbered ws names.
Proof.
  unfold read_genre. assert (G : forall ws ns, Forall (fun w => Forall (fun c => latin_space c = false) w) ws ->
     (map (fun w => drop_number (strip latin_space w)) ws = ns <-> Forall2 unnumbered ws ns)).
  { induction ws as [|w ws IH]; intros ns F; cbn.
    - split; [intros <-; constructor | now inversion 1].
    - inversion F as [|? ? F1 F2]; subst. rewrite strip_solid by auto. split.
      + intros <-. constructor; [apply drop_number_spec | now apply IH].
      + inversion 1 as [|? ? ? ? A1 A2]; subst. f_equal; [now apply drop_number_iff | now apply IH]. }
  pose proof (tokens_words latin_space file) as T. pose proof (tokens_solid _ _ T) as S. rewrite (G _ _ S). split.
  - intros H. eauto.
  - intros (ws & T' & H). now rewrite (tokens_unique _ _ _ _ T T').
Qed.
Lemma digit_not_blank c : 48 <= c <= 57 -> latin_space c = false.
Proof. intros H. unfold latin_space. lia. Qed.
Lemma genre_roundtrip l : Forall (fun p => genre_name (fst p) /\ ascii_number (snd p)) l ->
  read_genre (flat_map (fun p => genre_line (fst p) (snd p)) l) = map fst l.
Proof.
  intros F. apply read_genre_iff. exists (map (fun p => fst p ++ [124] ++ snd p) l). split.
  - assert (G : forall b, Forall (fun c => latin_space c = true) b ->
       tokens latin_space (b ++ flat_map (fun p => genre_line (fst p) (snd p)) l) (map (fun p => fst p ++ [124] ++ snd p) l)); [|apply (G []); constructor].
    induction F as [|[n d] l [[N S] [D A]] F IH]; intros b B; cbn [flat_map map fst snd] in *.
    + rewrite app_nil_r. now constructor.
    + unfold genre_line. replace (n ++ [124] ++ d ++ [10]) with ((n ++ [124] ++ d) ++ [10]) by (now rewrite <- !app_assoc).
      rewrite <- (app_assoc _ [10]). apply tokens_more; [exact B| | | |].
      * now destruct n.
      * repeat (apply Forall_app; split); auto. eapply Forall_impl; [|exact A]. apply digit_not_blank.
      * intros c [= <-]. reflexivity.
      * apply (IH [10]). now repeat constructor.
  - clear - F. induction F as [|[n d] l [_ A] F IH]; cbn; constructor; auto. left. exists d. auto.
Qed.

(** * Items *)
Lemma pystr_eqb_iff a b : pystr_eqb a b = true <-> a = b.
Proof. unfold pystr_eqb. destruct (list_eq_dec Z.eq_dec a b); split; congruence. Qed.
Lemma select_one g gs (fs : list (option Z)) : ~ In g gs ->
  flat_map (fun p : pystr * option Z => if pystr_eqb (fst p) g then [snd p] else []) (combine gs fs) = [].
Proof.
  revert fs. induction gs as [|x gs IH]; intros [|f fs] N; cbn; auto.
  destruct (pystr_eqb x g) eqn:E; [apply pystr_eqb_iff in E; destruct N; now left|]. apply IH. intros I. apply N. now right.
Qed.
Lemma select_id genres : NoDup genres -> forall flags, length flags = length genres -> select genres flags = flags.
Proof.
  intros ND flags L. unfold select.
  assert (G : forall pre pf post (fs : list (option Z)), NoDup (pre ++ post) -> length pf = length pre -> length fs = length post ->
    flat_map (fun g => flat_map (fun p : pystr * option Z => if pystr_eqb (fst p) g then [snd p] else []) (combine (pre ++ post) (pf ++ fs))) post = fs).
  { intros pre pf post. revert pre pf. induction post as [|g post IH]; intros pre pf [|f fs] N L1 L2; try discriminate; [reflexivity|].
    cbn [flat_map].
    assert (Npre : ~ In g pre). { intros I. apply NoDup_remove_2 in N. apply N. apply in_or_app. now left. }
    assert (Npost : ~ In g post). { intros I. apply NoDup_remove_2 in N. apply N. apply in_or_app. now right. }
    assert (X : flat_map (fun p : pystr * option Z => if pystr_eqb (fst p) g then [snd p] else []) (combine (pre ++ g :: post) (pf ++ f :: fs)) = [f]).
    { assert (C : combine (pre ++ g :: post) (pf ++ f :: fs) = combine pre pf ++ (g, f) :: combine post fs).
      { clear - L1. revert pf L1. induction pre as [|x pre IH]; intros [|y pf] L1; try discriminate; [reflexivity|]. cbn. f_equal. apply IH. cbn in L1. congruence. }
      rewrite C, flat_map_app. cbn [flat_map fst snd]. rewrite !select_one by auto. rewrite (proj2 (pystr_eqb_iff g g) eq_refl). reflexivity. }
    rewrite X. cbn [app]. f_equal. specialize (IH (pre ++ [g]) (pf ++ [f]) fs). rewrite <- !app_assoc in IH. cbn [app] in IH. apply IH; auto.
    rewrite !app_length. cbn. lia. }
  apply (G [] [] genres flags); auto.
Qed.
Lemma lookups_app ids genres a b ra rb : lookups ids genres a = Ok ra -> lookups ids genres b = Ok rb ->
  lookups ids genres (a ++ b) = Ok (ra ++ rb).
Proof.
  revert ra. induction a as [|[r c] a IH]; intros ra Ha Hb; cbn [lookups app] in *; [now injection Ha as <-|].
  destruct (nth_error ids r) as [m|]; [|discriminate]. destruct (nth_error genres c) as [g|]; [|discriminate].
  destruct (lookups ids genres a) as [x| | |]; try discriminate. cbn in Ha. injection Ha as <-. rewrite (IH x) by auto. reflexivity.
Qed.
Lemma lookups_row ids genres r m : nth_error ids r = Some m -> forall post pre flags, genres = pre ++ post -> length flags = length post ->
  exists out, marked post flags out /\
  lookups ids genres (flat_map (fun y => if nonzero (snd y) then [(r, fst y)] else []) (combine (seq (length pre) (length flags)) flags))
  = Ok (map (pair m) out).
Proof.
  intros Er. induction post as [|g post IH]; intros pre [|f flags] E L; try discriminate; [exists []; split; [constructor | reflexivity]|].
  cbn in L. injection L as L. destruct (IH (pre ++ [g]) flags) as (out & M & H); [now rewrite <- app_assoc | exact L|].
  rewrite app_length, Nat.add_comm in H. cbn [length Nat.add] in H. cbn [length seq combine flat_map fst snd].
  assert (Eg : nth_error genres (length pre) = Some g) by (rewrite E, nth_error_app2, Nat.sub_diag; [reflexivity | lia]).
  destruct (nonzero f) eqn:Z.
  - exists (g :: out). split; [constructor; [intros ->; discriminate | exact M]|].
    cbn [app lookups]. rewrite Er, Eg. rewrite H. reflexivity.
  - exists out. split; [|exact H]. destruct f as [[| |]|]; try discriminate. now constructor.
Qed.
Lemma lookups_rows genres : forall post pre ids, ids = map it_id (pre ++ post) ->
  Forall (fun r => length (it_flags r) = length genres) post ->
  exists outs, Forall2 (fun r out => marked genres (it_flags r) out) post outs /\
  lookups ids genres (flat_map (fun x : nat * list (option Z) => flat_map (fun y => if nonzero (snd y) then [(fst x, fst y)] else []) (indexed (snd x)))
     (combine (seq (length pre) (length post)) (map it_flags post)))
  = Ok (concat (map (fun p => map (pair (it_id (fst p))) (snd p)) (combine post outs))).
Proof.
  induction post as [|r post IH]; intros pre ids E F; [exists []; split; [constructor | reflexivity]|].
  inversion F as [|? ? L F']; subst. destruct (IH (pre ++ [r]) (map it_id ((pre ++ [r]) ++ post)) eq_refl F') as (outs & M & H).
  rewrite <- app_assoc in H. cbn [app] in H. rewrite app_length, Nat.add_comm in H. cbn [length Nat.add] in H.
  assert (Er : nth_error (map it_id (pre ++ r :: post)) (length pre) = Some (it_id r)).
  { rewrite map_app, nth_error_app2; rewrite map_length; [|lia]. now rewrite Nat.sub_diag. }
  destruct (lookups_row _ genres _ _ Er genres [] (it_flags r) eq_refl L) as (out & Mo & Ho).
  exists (out :: outs). split; [constructor; auto|].
  cbn [length seq map combine flat_map fst snd concat]. apply lookups_app; [exact Ho | exact H].
Qed.
Lemma item_info_ok width rows genres : width = (5 + length genres)%nat -> NoDup genres ->
  Forall (fun r => length (it_flags r) = length genres) rows ->
  exists outs, Forall2 (fun r out => marked genres (it_flags r) out) rows outs /\
    read_item_info width rows genres =
      Ok (map (fun r => (it_id r, it_info r)) rows, concat (map (fun p => map (pair (it_id (fst p))) (snd p)) (combine rows outs))).
Proof.
  intros W ND F. destruct (lookups_rows genres rows [] (map it_id rows) eq_refl F) as (outs & M & H).
  exists outs. split; [exact M|]. unfold read_item_info. rewrite (proj2 (Nat.eqb_eq width _) W). cbn [negb].
  assert (E : map (fun r => select genres (it_flags r)) rows = map it_flags rows).
  { clear - ND F. induction F as [|r rows L F IH]; [reflexivity|]. cbn. rewrite select_id by auto. now rewrite IH. }
  rewrite E. unfold nonzero_cells. unfold indexed at 2. rewrite map_length. cbn [length] in H. rewrite H. reflexivity.
Qed.
Lemma item_info_width width rows genres : width <> (5 + length genres)%nat -> read_item_info width rows genres = Fail ValueError.
Proof. intros W. unfold read_item_info. now rewrite (proj2 (Nat.eqb_neq width _) W). Qed.
