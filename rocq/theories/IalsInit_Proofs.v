(** The constructor of IALSRecommender: the strength of regularisation under
    nu_star, confidence scaling, and learning from the constructor on. *)
From Coq Require Import String.
From Verif Require Import Base Sched_Model.
From Verif Require PyStr_Model.
From mathcomp Require Import all_ssreflect all_algebra.
Import Order.TTheory GRing.Theory Num.Theory.
From Verif Require Import Ials_Model Ials_Spec IalsRow_Proofs IalsTrain_Proofs IalsEpoch_Proofs IalsTop_Proofs.
From Verif Require Import IalsState_Model IalsState_Spec IalsState_Proofs IalsInit_Model IalsInit_Spec.
Set Implicit Arguments.
Unset Strict Implicit.
Unset Printing Implicit Defensive.
Local Open Scope ring_scope.

Lemma obind_ok A B (x : outcome A) (f : A -> outcome B) b : Base.obind x f = Ok b -> exists2 a, x = Ok a & f a = Ok b.
Proof. by case: x => //= a h; exists a. Qed.
Lemma omap_ok A B (f : A -> B) (x : outcome A) b : Base.omap f x = Ok b -> exists2 a, x = Ok a & b = f a.
Proof. by case: x => //= a [<-]; exists a. Qed.
Lemma is_strP (s : pystr) l : reflect (s = PyStr_Model.str l) (is_str s l).
Proof. by rewrite /PyStr_Model.pystr_eqb; case: (List.list_eq_dec _ _ _) => h; constructor. Qed.

Section Init.
Variable upper : pystr -> pystr.
Variable F : realFieldType.
Variable pow : F -> F -> F.
Variable log : F -> F.

Section Scale.
Variables (m n : nat) (X : sparse F m n) (obs : observations F m n).
Hypothesis hX : represents X obs.
Let rowb al i : F := (size (X i))%:R + al * n%:R.
Let colb al j : F := (size (transpose X j))%:R + al * m%:R.

Lemma row_base al i : rowb al i = al * n%:R + (n_observed (obs i))%:R.
Proof. by rewrite /rowb addrC (rep_size (hX i)). Qed.
Lemma col_base al j : colb al j = al * m%:R + (n_observed (swap obs j))%:R.
Proof. by rewrite /colb addrC (rep_size (transpose_rep hX j)). Qed.

(** What compute_reg_scale sums up. *)
Definition weight_sum (al e : F) : F :=
  \sum_i pow (al * n%:R + (n_observed (obs i))%:R) e + \sum_j pow (al * m%:R + (n_observed (swap obs j))%:R) e.
Lemma reg_scaleE al e s : compute_reg_scale pow X al e = Ok s -> s = weight_sum al e.
Proof.
rewrite /compute_reg_scale; case: ifP => // _ [<-]; congr (_ + _); apply: eq_bigr => i _.
  by rewrite -row_base.
by rewrite -col_base.
Qed.
Lemma total_weightE cfg : total_weight pow cfg obs = reg cfg * weight_sum (alpha0 cfg) (nu cfg).
Proof. by rewrite /total_weight /weight_sum mulrDr !mulr_sumr. Qed.

Lemma scaled_regE al r e ns s : scaled_reg pow X al r e ns = Ok s ->
  s * weight_sum al e = r * weight_sum al (if ns is Some x then x else e).
Proof.
rewrite /scaled_reg; case: ns => [ns|]; last by case=> ->.
move=> hh; have [a ha1] := obind_ok hh; have {ha1} -> := reg_scaleE ha1; move=> {}hh.
have [b hb1] := obind_ok hh; have {hb1} -> := reg_scaleE hb1; move=> {hh}.
by case: eqP => // /eqP h [<-]; rewrite mulfVK.
Qed.
Lemma scaled_reg_same al r e ns s : scaled_reg pow X al r e ns = Ok s -> ns = None \/ ns = Some e -> s = r.
Proof.
move=> h [] hn; move: h; rewrite hn /scaled_reg; first by case.
move=> hh; have [a ha1] := obind_ok hh; have {ha1} -> := reg_scaleE ha1; move=> {}hh.
have [b hb1] := obind_ok hh; have {hb1} -> := reg_scaleE hb1; move=> {hh}.
by case: eqP => // /eqP h [<-]; rewrite mulfK.
Qed.

Hypothesis hp : power_like pow.
Lemma weight_sum_ge0 al e : 0 <= al -> 0 <= weight_sum al e.
Proof.
move=> ha; have [h _ _] := hp.
by apply: addr_ge0; apply: sumr_ge0 => i _; apply: h; rewrite addr_ge0 ?mulr_ge0 ?ler0n.
Qed.
Lemma pow_pos_n (k other : nat) al e : 0 < al -> (0 < other)%N -> 0 < pow (al * other%:R + k%:R) e.
Proof.
move=> ha ho; have [_ h _] := hp; apply: h.
by apply: ltr_paddr; [rewrite ler0n|rewrite mulr_gt0 // ltr0n].
Qed.
Lemma weight_sum_gt0 al e : 0 < al -> (0 < m)%N -> (0 < n)%N -> 0 < weight_sum al e.
Proof.
move=> ha hm hn; apply: ltr_paddr.
  by apply: sumr_ge0 => j _; apply: ltW; apply: pow_pos_n.
rewrite (bigD1 (Ordinal hm)) //=; apply: ltr_paddr; last exact: pow_pos_n.
by apply: sumr_ge0 => j _; apply: ltW; apply: pow_pos_n.
Qed.

Lemma scaled_reg_ge0 al r e ns s : 0 <= al -> 0 <= r -> scaled_reg pow X al r e ns = Ok s -> 0 <= s.
Proof.
move=> ha hr; rewrite /scaled_reg; case: ns => [ns|]; last by case=> <-.
move=> hh; have [a ha1] := obind_ok hh; have {ha1} -> := reg_scaleE ha1; move=> {}hh.
have [b hb1] := obind_ok hh; have {hb1} -> := reg_scaleE hb1; move=> {hh}.
by case: eqP => // _ [<-]; rewrite divr_ge0 // ?mulr_ge0 // ?weight_sum_ge0.
Qed.

Lemma reg_scale_ok al e : 0 < al -> (0 < m)%N -> (0 < n)%N -> compute_reg_scale pow X al e = Ok (weight_sum al e).
Proof.
move=> ha hm hn.
have hb (k o : nat) : (0 < o)%N -> pow_ok (k%:R + al * o%:R) e.
  by move=> ho; rewrite /pow_ok ltr_paddl ?ler0n ?mulr_gt0 ?ltr0n.
have [s E] : exists s, compute_reg_scale pow X al e = Ok s; last by rewrite E (reg_scaleE E).
rewrite /compute_reg_scale ifT; first by eexists.
by apply/andP; split; apply/forallP => i; apply: hb.
Qed.
Lemma scaled_reg_gt0 al r e ns : 0 < al -> 0 < r -> (0 < m)%N -> (0 < n)%N ->
  exists2 s, scaled_reg pow X al r e ns = Ok s & 0 < s.
Proof.
move=> ha hr hm hn; case: ns => [ns|] /=; last by exists r.
rewrite !reg_scale_ok //= ifF; last by apply/eqP/eqP; rewrite gt_eqF // weight_sum_gt0.
by eexists; first reflexivity; rewrite divr_gt0 ?mulr_gt0 ?weight_sum_gt0.
Qed.

(** When the sum is zero. *)
Lemma weight_sum_eq0 al e : 0 <= al -> 0 < e ->
  (weight_sum al e == 0) <-> unobserved obs /\ [\/ al = 0, m = 0%N | n = 0%N].
Proof.
move=> ha he; have [h0 h1 h2] := hp.
have hge (k o : nat) : 0 <= al * o%:R + k%:R by rewrite addr_ge0 ?mulr_ge0 ?ler0n.
have hz (k o : nat) : pow (al * o%:R + k%:R) e = 0 -> al * o%:R + k%:R = 0.
  move=> h; apply/eqP; rewrite eq_le hge andbT leNgt; apply/negP => hpos.
  by have := h1 _ e hpos; rewrite h ltxx.
rewrite /weight_sum paddr_eq0; try by apply: sumr_ge0 => i _; apply: h0.
rewrite !psumr_eq0; try by move=> i _; apply: h0.
split.
  move=> /andP[/allP hr /allP hc].
  have hri i : al * n%:R + (n_observed (obs i))%:R = 0 by apply: hz; apply/eqP; apply: hr; rewrite mem_index_enum.
  have hcj j : al * m%:R + (n_observed (swap obs j))%:R = 0 by apply: hz; apply/eqP; apply: hc; rewrite mem_index_enum.
  have hno i : n_observed (obs i) = 0%N.
    have := hri i; move/eqP; rewrite paddr_eq0 ?mulr_ge0 ?ler0n // pnatr_eq0 => /andP[_ /eqP]; exact.
  split.
    move=> i j; have := hno i; rewrite /n_observed => /card0_eq /(_ j); rewrite inE.
    by case: (obs i j).
  have [h0m|hm] := posnP m; first by constructor 2.
  have := hri (Ordinal hm); move/eqP; rewrite paddr_eq0 ?mulr_ge0 ?ler0n // => /andP[].
  by rewrite mulf_eq0 pnatr_eq0 => /orP[] /eqP ? _; [constructor 1|constructor 3].
move=> [ho hd].
have hno i : n_observed (obs i) = 0%N by rewrite /n_observed; apply: eq_card0 => j; rewrite inE ho.
have hno' j : n_observed (swap obs j) = 0%N by rewrite /n_observed; apply: eq_card0 => i; rewrite inE /swap ho.
apply/andP; split; apply/allP => i _ /=.
  rewrite hno addr0; case: hd => hd.
  - by rewrite hd mul0r h2.
  - by exfalso; have := leq_ltn_trans (leq0n i) (ltn_ord i); rewrite hd.
  - by rewrite hd mulr0 h2.
rewrite hno' addr0; case: hd => hd.
- by rewrite hd mul0r h2.
- by rewrite hd mulr0 h2.
- by exfalso; have := leq_ltn_trans (leq0n i) (ltn_ord i); rewrite hd.
Qed.
End Scale.

(** ** The constructor *)
Section Constructor.
Variables (m n : nat) (X : sparse F m n) (obs : observations F m n).
Hypothesis hX : represents X obs.
Variables (a : ials_args F) (hf : bool).

Lemma init_inv r : ials_init upper pow a X hf = Ok r -> exists s so lo rg,
  [/\ str_to_scaling (g_scaling a) = Ok s, str_to_solver_type upper (g_solver a) = Ok so,
      str_to_loss_type upper (g_loss a) = Ok lo,
      scaled_reg pow X (g_alpha0 a) (g_reg a) (g_nu a) (g_nu_star a) = Ok rg &
      hf && is_str (g_solver a) "IALSPP" = false /\
      r = IalsRec (ModelConfig (g_alpha0 a) rg (g_nu a) lo (g_lambda_user a) (g_lambda_item a) (g_warmup a))
            (SolverConfig (g_n_threads a) so (g_max_cg_steps a) (g_subspace a) 1) s (g_epsilon a) (g_train_epochs a)].
Proof.
rewrite /ials_init => h.
have [s hs {}h] := obind_ok h; have [so hso {}h] := obind_ok h.
have [lo hlo {}h] := obind_ok h; have [rg hrg {}h] := obind_ok h.
exists s, so, lo, rg; split=> //; move: h; case: (_ && _) => // -[<-].
by [].
Qed.

Lemma strength r : ials_init upper pow a X hf = Ok r ->
  total_weight pow (r_cfg r) obs = total_weight pow (with_reg (r_cfg r) (g_reg a) (reference_nu a)) obs.
Proof.
move=> /init_inv [s [so [lo [rg [_ _ _ hrg [_ ->]]]]]]; rewrite !total_weightE /=.
exact: (scaled_regE hX hrg).
Qed.

Lemma reg_loss_norm cfg m' n' (o : observations F m' n') K (T : 'M[F]_(m', K)) s : rows_of_norm s T ->
  reg_loss pow cfg o T 0 = s * \sum_i reg_weight pow cfg (n_observed (o i)) n'.
Proof.
move=> hs; rewrite /reg_loss mulr_sumr; apply: eq_bigr => i _; rewrite mulrC -(hs i); congr (_ * _).
by apply: eq_bigr => k _; rewrite mxE subr0.
Qed.
Lemma equal_norms r K (U : 'M[F]_(m, K)) (V : 'M[F]_(n, K)) s : ials_init upper pow a X hf = Ok r ->
  rows_of_norm s U -> rows_of_norm s V ->
  reg_loss pow (r_cfg r) obs U 0 + reg_loss pow (r_cfg r) (swap obs) V 0 =
  reg_loss pow (with_reg (r_cfg r) (g_reg a) (reference_nu a)) obs U 0 +
  reg_loss pow (with_reg (r_cfg r) (g_reg a) (reference_nu a)) (swap obs) V 0.
Proof.
move=> /strength h hU hV; rewrite !(reg_loss_norm _ _ hU) !(reg_loss_norm _ _ hV) -!mulrDr.
by congr (_ * _); exact: h.
Qed.

Lemma init_settings r : ials_init upper pow a X hf = Ok r ->
  [/\ alpha0 (r_cfg r) = g_alpha0 a, nu (r_cfg r) = g_nu a,
      (g_nu_star a = None \/ g_nu_star a = Some (g_nu a) -> reg (r_cfg r) = g_reg a) &
      [/\ lambda_user_feature (r_cfg r) = g_lambda_user a, lambda_item_feature (r_cfg r) = g_lambda_item a &
          feature_warmup_epochs (r_cfg r) = g_warmup a]].
Proof.
move=> /init_inv [s [so [lo [rg [_ _ _ hrg [_ ->]]]]]]; split=> //= h.
exact: (scaled_reg_same hX hrg h).
Qed.

(** The names choose what they say. *)
Lemma init_names r : ials_init upper pow a X hf = Ok r ->
  [/\ known_names upper a,
      [/\ is_str (upper (g_solver a)) "CHOLESKY" -> solver (r_sc r) = Cholesky, is_str (upper (g_solver a)) "CG" -> solver (r_sc r) = CG &
          is_str (upper (g_solver a)) "IALSPP" -> solver (r_sc r) = IALSPP],
      [/\ is_str (upper (g_loss a)) "ORIGINAL" -> loss (r_cfg r) = LossOriginal, is_str (upper (g_loss a)) "IALSPP" -> loss (r_cfg r) = LossIalspp &
          r_log r = is_str (g_scaling a) "log"] &
      [/\ n_threads (r_sc r) = g_n_threads a, max_cg_steps (r_sc r) = g_max_cg_steps a,
          ialspp_subspace_dimension (r_sc r) = g_subspace a, r_epochs r = g_train_epochs a & r_epsilon r = g_epsilon a]].
Proof.
move=> /init_inv [s [so [lo [rg [h1 h2 h3 _ [_ ->]]]]]].
move: h1 h2 h3; rewrite /str_to_scaling /str_to_solver_type /str_to_loss_type /=.
have D (u : pystr) (x y : String.string) : is_str u x -> is_str (PyStr_Model.str x) y = false -> is_str u y = false.
  by rewrite {1}/PyStr_Model.pystr_eqb; case: (List.list_eq_dec _ u _) => // ->.
have D1 u : is_str u "CG" -> is_str u "CHOLESKY" = false by move=> h; apply: (D _ _ _ h).
have D2 u : is_str u "IALSPP" -> is_str u "CHOLESKY" = false by move=> h; apply: (D _ _ _ h).
have D3 u : is_str u "IALSPP" -> is_str u "CG" = false by move=> h; apply: (D _ _ _ h).
have D4 u : is_str u "IALSPP" -> is_str u "ORIGINAL" = false by move=> h; apply: (D _ _ _ h).
have D5 u : is_str u "none" -> is_str u "log" = false by move=> h; apply: (D _ _ _ h).
move=> h1 h2 h3; split.
- split.
  + by move: h1; case: ifP => // [?|_]; [left|case: ifP => // ?; right].
  + by move: h2; case: ifP => [?|_]; [constructor 1|case: ifP => [?|_]; [constructor 2|case: ifP => // ?; constructor 3]].
  + by move: h3; case: ifP => // [?|_]; [left|case: ifP => // ?; right].
- split=> h; move: h2.
  + by rewrite h => -[].
  + by rewrite (D1 _ h) h => -[].
  + by rewrite (D2 _ h) (D3 _ h) h => -[].
- split=> [h|h|]; [move: h3|move: h3|move: h1].
  + by rewrite h => -[].
  + by rewrite (D4 _ h) h => -[].
  + by case: ifP => [/D5 -> [<-]//|_]; case: ifP => // _ [<-].
- by [].
Qed.
Lemma init_unknown : ~ known_names upper a -> ials_init upper pow a X hf = Fail KeyError \/ ials_init upper pow a X hf = Fail AttributeError.
Proof.
rewrite /ials_init /str_to_scaling /str_to_solver_type /str_to_loss_type /known_names => h.
case h1: (is_str (g_scaling a) "none") h => h; last case h1': (is_str (g_scaling a) "log") h => h; [| |by left];
case h2: (is_str (upper (g_solver a)) "CHOLESKY") h => h; try (case h2': (is_str (upper (g_solver a)) "CG") h => h);
try (case h2'': (is_str (upper (g_solver a)) "IALSPP") h => h); try by right.
all: case h3: (is_str (upper (g_loss a)) "ORIGINAL") h => h; try (case h3': (is_str (upper (g_loss a)) "IALSPP") h => h); try by right.
all: exfalso; apply: h; split; by auto using Or31, Or32, Or33.
Qed.

Hypothesis hp : power_like pow.
Lemma names_ok : known_names upper a -> exists s so lo,
  [/\ str_to_scaling (g_scaling a) = Ok s, str_to_solver_type upper (g_solver a) = Ok so &
      str_to_loss_type upper (g_loss a) = Ok lo].
Proof.
move=> [h1 h2 h3].
have [s hs] : exists s, str_to_scaling (g_scaling a) = Ok s.
  by rewrite /str_to_scaling; case: h1 => ->; [|case: ifP => _]; eexists.
have [so hso] : exists s, str_to_solver_type upper (g_solver a) = Ok s.
  by rewrite /str_to_solver_type; case: h2 => ->; do ?[case: ifP => _]; eexists.
have [lo hlo] : exists s, str_to_loss_type upper (g_loss a) = Ok s.
  by rewrite /str_to_loss_type; case: h3 => ->; do ?[case: ifP => _]; eexists.
by exists s, so, lo.
Qed.

(** A base that is not negative has a power, unless it is zero and the exponent
    negative. *)
Lemma reg_scale_total al e : 0 <= al -> 0 <= e -> compute_reg_scale pow X al e = Ok (weight_sum obs al e).
Proof.
move=> ha he.
have hb (k o : nat) : pow_ok (k%:R + al * o%:R) e.
  have : 0 <= k%:R + al * o%:R by rewrite addr_ge0 ?mulr_ge0 ?ler0n.
  by rewrite /pow_ok he andbT le_eqVlt eq_sym orbC.
have [s E] : exists s, compute_reg_scale pow X al e = Ok s; last by rewrite E (reg_scaleE hX E).
rewrite /compute_reg_scale ifT; first by eexists.
by apply/andP; split; apply/forallP => i; apply: hb.
Qed.
Lemma division_by_zero ns : known_names upper a -> 0 <= g_alpha0 a -> 0 < g_nu a -> g_nu_star a = Some ns -> 0 <= ns ->
  (ials_init upper pow a X hf = Fail ZeroDivision) <->
  unobserved obs /\ [\/ g_alpha0 a = 0, m = 0%N | n = 0%N].
Proof.
move=> hk ha hn hs hns; rewrite -(weight_sum_eq0 obs hp ha hn).
have [s [so [lo [h1 h2 h3]]]] := names_ok hk.
rewrite /ials_init h1 h2 h3 /= /scaled_reg hs !reg_scale_total // ?ltW //=.
by case: (weight_sum obs (g_alpha0 a) (g_nu a) == 0) => //=; split=> //; case: (_ && _).
Qed.
End Constructor.

(** ** Confidence scaling *)
Section Confidence.
Variables (m n : nat) (obs : observations F m n).
Lemma n_observed_scaled f i : n_observed (scaled f obs i) = n_observed (obs i).
Proof. by apply: eq_card => j; rewrite !inE /scaled; case: (obs i j). Qed.
Lemma n_observed_scaled' f j : n_observed (swap (scaled f obs) j) = n_observed (swap obs j).
Proof. by apply: eq_card => i; rewrite !inE /swap /scaled; case: (obs i j). Qed.

Hypothesis hl : log_like log.
Lemma log_ge0 x : 1 <= x -> 0 <= log x.
Proof.
case: hl => h1 h2; rewrite le_eqVlt => /orP[/eqP <-|h]; first by rewrite h1.
by rewrite -h1 ltW // h2 // ltr01.
Qed.
Lemma log_gt0 x : 1 < x -> 0 < log x.
Proof. by case: hl => h1 h2 h; rewrite -h1 h2 // ltr01. Qed.

Variable a : ials_args F.
Hypothesis heps : is_str (g_scaling a) "log" -> 0 < g_epsilon a.
Lemma confidence_ge0 x : 0 <= x -> 0 <= confidence log a x.
Proof.
rewrite /confidence; case: ifP => // h hx; apply: log_ge0.
by rewrite ler_addl divr_ge0 // ltW // heps.
Qed.
Lemma confidence_eq0 x : 0 <= x -> (confidence log a x == 0) = (x == 0).
Proof.
rewrite /confidence; case: ifP => // h hx; have he := heps h.
have [->|hn] := eqVneq x 0; first by rewrite mul0r addr0 (proj1 hl) eqxx.
have hx' : 0 < x by rewrite lt_neqAle eq_sym hn.
by apply/negbTE; rewrite gt_eqF // log_gt0 // ltr_addl divr_gt0.
Qed.
Lemma confidence_lt x y : 0 <= x -> x < y -> confidence log a x < confidence log a y.
Proof.
rewrite /confidence; case: ifP => // h hx hxy; have he := heps h; case: hl => _ hm.
apply: hm; first by apply: ltr_paddr; [rewrite divr_ge0 // ltW|rewrite ltr01].
by rewrite ltr_add2l ltr_pmul2r ?invr_gt0.
Qed.
Lemma nonneg_confidence : nonneg obs -> nonneg (scaled (confidence log a) obs).
Proof.
move=> h i j c; rewrite /scaled; case E: (obs i j) => [c'|//] [<-].
by apply: confidence_ge0; apply: h E.
Qed.
Lemma in_S_confidence i j : nonneg obs -> in_S (scaled (confidence log a) obs i j) = in_S (obs i j).
Proof.
by move=> h; rewrite /scaled /in_S; case E: (obs i j) => [c|//]; rewrite confidence_eq0 //; apply: h E.
Qed.
End Confidence.

Lemma scaling_str (a : ials_args F) s : str_to_scaling (g_scaling a) = Ok s -> s = is_str (g_scaling a) "log".
Proof.
rewrite /str_to_scaling; case: ifP => [/is_strP ->|_]; first by move=> [<-]; apply/esym/is_strP.
by case: ifP => // _ [<-].
Qed.
Lemma scale_data_rep m n (X X' : sparse F m n) obs (a : ials_args F) : represents X obs ->
  scale_data log (is_str (g_scaling a) "log") (g_epsilon a) X = Ok X' ->
  represents X' (scaled (confidence log a) obs).
Proof.
rewrite /scale_data => hX; case E: (is_str _ _).
  case: ifP => // _ [<-] i; have h := scale_rep (log_scale log (g_epsilon a)) hX i.
  have -> : scaled (confidence log a) obs i = scaled (log_scale log (g_epsilon a)) obs i; last exact: h.
  by rewrite /scaled /confidence E.
move=> [<-] i; have [h1 h2] := hX i; split=> // j c; rewrite h2 /scaled /confidence E.
by case: (obs i j).
Qed.
Lemma scale_data_ok m n (X : sparse F m n) obs (a : ials_args F) : represents X obs -> nonneg obs ->
  (is_str (g_scaling a) "log" -> 0 < g_epsilon a) ->
  exists X', scale_data log (is_str (g_scaling a) "log") (g_epsilon a) X = Ok X'.
Proof.
rewrite /scale_data => hX hn he; case E: (is_str _ _); last by eexists.
rewrite ifT; first by eexists.
have {}he := he E; apply/forallP => i; apply/allP => -[j c] hin /=.
rewrite /log_ok (gt_eqF he) /= ltr_paddr ?ltr01 // divr_ge0 ?(ltW he) //.
by apply: (hn i j); apply/(hX i).2.
Qed.

Lemma trainer_confidence m n K fu fi (uf : option 'M[F]_(m, fu)) (itf : option 'M[F]_(n, fi))
    (X : sparse F m n) obs a hf r (user0 : 'M[F]_(m, K)) item0 d t0 :
  represents X obs -> ials_init upper pow a X hf = Ok r -> create_trainer log uf itf r X user0 item0 = Ok (d, t0) ->
  represents (d_X d) (scaled (confidence log a) obs).
Proof.
move=> hX h1 h2; have [s [so [lo [rg [hs _ _ _ [_ er]]]]]] := init_inv h1.
have [X' hX' hd] := obind_ok h2; have [t1 ht1 [ed et]] := omap_ok hd.
by rewrite ed /=; apply: (scale_data_rep hX); rewrite -(scaling_str hs) -hX' er.
Qed.
Lemma trainer_documented m n K fu fi (X : sparse F m n) obs a r (user0 : 'M[F]_(m, K)) item0 d t0 (t : trainer F m n K _ _) :
  represents X obs -> (forall i j c, obs i j = Some c -> 0 < c) ->
  log_like log -> (is_str (g_scaling a) "log" -> 0 < g_epsilon a) ->
  ials_init upper pow a X false = Ok r -> loss (r_cfg r) = LossIalspp ->
  create_trainer log (None : option 'M[F]_(m, fu)) (None : option 'M[F]_(n, fi)) r X user0 item0 = Ok (d, t0) ->
  objective pow (r_cfg r) (scaled (confidence log a) obs) d t =
  documented_loss pow (r_cfg r) (scaled (confidence log a) obs) (t_user t) (t_item t).
Proof.
move=> hX hpos hl he h1 hlo h2; apply: top_documented => //.
  by have [X' hX' hd] := obind_ok h2; have [t1 ht1 [ed et]] := omap_ok hd; rewrite ed.
move=> i j; rewrite /scaled; case E: (obs i j) => [c|//] [hc].
have hc0 := hpos _ _ _ E.
have := confidence_eq0 hl he (ltW hc0); by rewrite hc eqxx (gt_eqF hc0).
Qed.

(** ** Learning *)
Section Learning.
Variables (m n K fu fi : nat) (uf : option 'M[F]_(m, fu)) (itf : option 'M[F]_(n, fi)).
Variables (X : sparse F m n) (obs : observations F m n).
Hypothesis hX : represents X obs.
Hypothesis hp : power_like pow.
Hypothesis hl : log_like log.
Variable a : ials_args F.
Hypothesis hn : nonneg obs.
Hypothesis heps : is_str (g_scaling a) "log" -> 0 < g_epsilon a.
Notation obs' := (scaled (confidence log a) obs).

Lemma run_epochs_inv r d es todo e (t t' : trainer F m n K (feat_cols uf) (feat_cols itf)) :
  represents (d_X d) obs' -> 0 <= alpha0 (r_cfg r) -> weights_ge0 pow (r_cfg r) obs' -> weights_ge0 pow (r_cfg r) (swap obs') ->
  reachable pow (r_cfg r) d t -> run_epochs pow r d es todo e t = Ok t' ->
  objective pow (r_cfg r) obs' d t' <= objective pow (r_cfg r) obs' d t /\ reachable pow (r_cfg r) d t'.
Proof.
move=> hd ha hw hw'; elim: todo e t => [|todo IH] e t hr /=; first by move=> [<-].
move=> h; have [t1 h1 h2] := obind_ok h.
have [h3 h4] := IH _ _ (reachable_step hr h1) h2; split=> //; apply: le_trans h3 _.
exact: (top_epoch hd ha (nonneg_confidence hl heps hn) hw hw' hr h1).
Qed.
Lemma run_epochs_total r d es todo e (t : trainer F m n K (feat_cols uf) (feat_cols itf)) :
  represents (d_X d) obs' -> 0 <= alpha0 (r_cfg r) -> weights_gt0 pow (r_cfg r) obs' -> weights_gt0 pow (r_cfg r) (swap obs') ->
  reachable pow (r_cfg r) d t -> (0 < n_threads (r_sc r))%N -> (d_feature_aware d -> solver (r_sc r) <> IALSPP) ->
  (forall k, fair_epoch m n K (n_threads (r_sc r)) (es k)) -> exists t', run_epochs pow r d es todo e t = Ok t'.
Proof.
move=> hd ha hw hw' hr hnt hs hf; elim: todo e t hr => [|todo IH] e t hr /=; first by eexists.
have [t1 h1] := epoch_total hd ha hw hw' (nonneg_confidence hl heps hn) hr hnt hs (hf e).
by rewrite h1 /=; apply: IH; apply: reachable_step h1.
Qed.

Lemma reg_weight_ge0 cfg k o : 0 <= alpha0 cfg -> 0 <= reg cfg -> 0 <= reg_weight pow cfg k o.
Proof.
move=> ha hr; have [h _ _] := hp; apply: mulr_ge0 => //; apply: h.
by rewrite addr_ge0 ?mulr_ge0 ?ler0n.
Qed.
Lemma reg_weight_gt0 cfg k o : 0 < alpha0 cfg -> 0 < reg cfg -> (0 < o)%N -> 0 < reg_weight pow cfg k o.
Proof. by move=> ha hr ho; apply: mulr_gt0 => //; apply: pow_pos_n. Qed.

Lemma learn_descends (user0 : 'M[F]_(m, K)) item0 es t : 0 <= g_alpha0 a -> 0 <= g_reg a ->
  ials_learn upper pow log uf itf a X user0 item0 es = Ok t ->
  exists r d t0, [/\ ials_init upper pow a X (given uf || given itf) = Ok r,
    create_trainer log uf itf r X user0 item0 = Ok (d, t0), t_user t0 = user0 /\ t_item t0 = item0,
    represents (d_X d) obs' & objective pow (r_cfg r) obs' d t <= objective pow (r_cfg r) obs' d t0].
Proof.
move=> ha hr h; have [r h1 {}h] := obind_ok h; have [[d t0] h2 h3] := obind_ok h.
exists r, d, t0.
have [s [so [lo [rg [hs _ _ hrg [_ er]]]]]] := init_inv h1.
have [X' hX' hd] := obind_ok h2; have [t1 ht1 [ed et]] := omap_ok hd.
have hd' : represents (d_X d) obs'.
  by rewrite ed /=; apply: (scale_data_rep hX); rewrite -(scaling_str hs) -hX' er.
have [e1 e2] : t_user t0 = user0 /\ t_item t0 = item0.
  by rewrite et; move: ht1; rewrite /new_trainer; case: ifP => // _ [<-].
split=> //.
have ha' : 0 <= alpha0 (r_cfg r) by rewrite er.
have hr' : 0 <= reg (r_cfg r) by rewrite er /=; apply: (scaled_reg_ge0 hX hp ha hr hrg).
apply: (proj1 (run_epochs_inv (todo := r_epochs r) (e := 0%N) (es := es) hd' ha' _ _ _ h3)).
- by move=> i; apply: reg_weight_ge0.
- by move=> i; apply: reg_weight_ge0.
by rewrite et; apply: (@reachable_new _ _ _ _ _ _ _ _ _ user0 item0); rewrite ed.
Qed.

Lemma learn_returns (user0 : 'M[F]_(m, K)) item0 es : known_names upper a -> 0 < g_alpha0 a -> 0 < g_reg a -> (0 < m)%N -> (0 < n)%N ->
  (0 < g_n_threads a)%N -> (forall k, fair_epoch m n K (g_n_threads a) (es k)) ->
  (given uf || given itf -> [/\ 0 < g_lambda_user a, 0 < g_lambda_item a & ~~ is_str (upper (g_solver a)) "IALSPP" /\ ~~ is_str (g_solver a) "IALSPP"]) ->
  exists t, ials_learn upper pow log uf itf a X user0 item0 es = Ok t.
Proof.
move=> hk ha hr hm hn0 hnt hf hfe.
have [s [so [lo [h1 h2 h3]]]] := names_ok hk.
have [rg h4 hrg] := scaled_reg_gt0 hX hp (g_nu a) (g_nu_star a) ha hr hm hn0.
have [X' h5] := scale_data_ok hX hn heps.
have h6 : (given uf || given itf) && is_str (g_solver a) "IALSPP" = false.
  by case E: (_ || _) => //=; have [_ _ [_ /negbTE]] := hfe E.
set r := IalsRec (ModelConfig (g_alpha0 a) rg (g_nu a) lo (g_lambda_user a) (g_lambda_item a) (g_warmup a))
            (SolverConfig (g_n_threads a) so (g_max_cg_steps a) (g_subspace a) 1) s (g_epsilon a) (g_train_epochs a).
have hi : ials_init upper pow a X (given uf || given itf) = Ok r by rewrite /ials_init h1 h2 h3 /= h4 /= h6.
rewrite /ials_learn hi /=; rewrite /create_trainer /= (scaling_str h1) h5 /=.
set d := TrainData X' _ _ _.
have [t0 ht0] : exists t0, new_trainer (r_cfg r) d user0 item0 = Ok t0.
  rewrite /new_trainer ifF; first by eexists.
  rewrite /d /=; case E: (_ || _) => //=; have [e1 e2 _] := hfe E.
  by rewrite !leNgt e1 e2 /= !andbF.
rewrite ht0 /=; apply: run_epochs_total => //=.
- exact: (scale_data_rep hX h5).
- exact: ltW.
- by move=> i; apply: reg_weight_gt0.
- by move=> i; apply: reg_weight_gt0.
- exact: reachable_new ht0.
move=> /hfe [_ _ [hu _]] eso; move: h2; rewrite eso /str_to_solver_type.
by do 2?[case: ifP => // _]; rewrite (negbTE hu).
Qed.

(** Epochs of a feature-aware trainer with the iALS++ solver raise. *)
Lemma learn_ialspp (user0 : 'M[F]_(m, K)) item0 es r dt : ials_init upper pow a X (given uf || given itf) = Ok r ->
  create_trainer log uf itf r X user0 item0 = Ok dt -> given uf || given itf -> solver (r_sc r) = IALSPP -> (0 < r_epochs r)%N ->
  ials_learn upper pow log uf itf a X user0 item0 es = Fail InvalidArgument.
Proof.
move=> h1 h2 hg hs; rewrite /ials_learn h1 /= h2 /=; case: (r_epochs r) => // k _ /=.
have [X' _ hd] := obind_ok h2; have [t1 _ ed] := omap_ok hd.
by rewrite /trainer_step hs ed /= hg.
Qed.
End Learning.
End Init.
