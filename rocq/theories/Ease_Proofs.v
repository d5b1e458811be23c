(** Linear autoencoders: the closed form is the constrained minimiser. *)
From Verif Require Import Base.
From mathcomp Require Import all_ssreflect all_algebra.
From mathcomp.algebra_tactics Require Import ring.
Import Order.TTheory GRing.Theory Num.Theory.
From Verif Require Import Ials_Model IalsLin_Proofs Ease_Model Ease_Spec.
Set Implicit Arguments.
Unset Strict Implicit.
Unset Printing Implicit Defensive.
Local Open Scope ring_scope.

Section Ease.
Variable F : realFieldType.
Variables (m n : nat).
Implicit Types (X : 'M[F]_(m, n)) (W : 'M[F]_n) (lam : 'I_n -> F).

Local Notation ax := (@add_diagonal F n).

Lemma add_diagonal_sym lam (P : 'M[F]_n) : P^T = P -> (ax lam P)^T = ax lam P.
Proof.
move=> h; apply/matrixP => i j; rewrite !mxE eq_sym.
have E : P j i = P i j by rewrite -[in RHS]h mxE.
by case: eqP => [->|]; rewrite ?E.
Qed.

Lemma p_dense_sym X : (p_dense X)^T = p_dense X.
Proof. by rewrite /p_dense trmx_mul trmxK. Qed.

Lemma add_diagonal_mul lam (P : 'M[F]_n) (y : 'cV[F]_n) :
  ax lam P *m y = P *m y + \col_i (lam i * y i 0).
Proof.
apply/matrixP => i j; rewrite ord1 !mxE.
rewrite (bigD1 i) //= [in RHS](bigD1 i) //= !mxE eqxx mulrDl -!addrA; congr (_ + _).
rewrite addrC; congr (_ + _); apply: eq_bigr => k hk.
by rewrite mxE eq_sym (negPf hk).
Qed.

Lemma dot_add_diagonal lam X (y : 'cV[F]_n) :
  dot y (ax lam (p_dense X) *m y) = sqnorm (X *m y) + \sum_i lam i * y i 0 ^+ 2.
Proof.
rewrite add_diagonal_mul dotDr /p_dense -mulmxA dot_mul_tr trmxK; congr (_ + _).
by rewrite /dot; apply: eq_bigr => i _; rewrite mxE; ring.
Qed.

Lemma posdef_ax lam X : (forall i, 0 < lam i) -> posdef (ax lam (p_dense X)).
Proof.
move=> hl y hy; rewrite dot_add_diagonal; apply: ltr_paddl; first exact: sqnorm_ge0.
rewrite lt_neqAle sumr_ge0 ?andbT; last by move=> i _; rewrite mulr_ge0 ?sqr_ge0 ?ltW.
apply: contra hy => /eqP/esym/eqP; rewrite psumr_eq0; last first.
  by move=> i _; rewrite mulr_ge0 ?sqr_ge0 ?ltW.
move/allP => H; apply/eqP/matrixP => i j; rewrite ord1 mxE.
have := H i (mem_index_enum _); rewrite /= mulf_eq0 (gt_eqF (hl i)) /= sqrf_eq0 => /eqP //.
Qed.

Lemma posdef_unit (A : 'M[F]_n) : posdef A -> A \in unitmx.
Proof.
move=> hp; rewrite -unitmx_tr -row_free_unit; apply/row_freeP.
apply/row_freeP; rewrite -kermx_eq0; apply/negPn/negP => hk.
have [i hi] : exists i, row i (kermx A^T) != 0.
  apply/existsP; rewrite -negb_forall; apply: contra hk => /forallP H.
  by apply/eqP/row_matrixP => i; rewrite row0; apply/eqP.
have hz : A *m (row i (kermx A^T))^T = 0.
  apply: trmx_inj; rewrite trmx_mul trmxK trmx0 -row_mul mulmx_ker.
  by rewrite row0.
have := hp (row i (kermx A^T))^T; rewrite hz dot0r ltxx => H.
apply: notF; apply: H; apply: contra hi => /eqP h.
by apply/eqP; apply: trmx_inj; rewrite h trmx0.
Qed.

Definition ej (j : 'I_n) : 'cV[F]_n := delta_mx j 0.

Lemma dot_ej (y : 'cV[F]_n) j : dot y (ej j) = y j 0.
Proof.
rewrite /dot (bigD1 j) //= big1 ?addr0; last first.
  by move=> k hk; rewrite mxE (negPf hk) mulr0.
by rewrite mxE !eqxx mulr1.
Qed.

Section Fixed.
Variables (lam : 'I_n -> F) (X : 'M[F]_(m, n)).
Hypothesis lam0 : forall i, 0 < lam i.
Let A := ax lam (p_dense X).
Let P := invmx A.

Lemma A_unit : A \in unitmx. Proof. exact/posdef_unit/posdef_ax. Qed.
Lemma A_sym : A^T = A. Proof. exact/add_diagonal_sym/p_dense_sym. Qed.
Lemma A_col j : A *m col j P = ej j.
Proof. by rewrite !colE mulmxA mulmxV ?A_unit // mul1mx. Qed.
Lemma P_col_neq0 j : col j P != 0.
Proof.
apply/eqP => h; have := A_col j; rewrite h mulmx0 => /matrixP/(_ j 0).
by rewrite !mxE !eqxx => /esym/eqP; rewrite oner_eq0.
Qed.
Lemma P_pos j : 0 < P j j.
Proof.
have := posdef_ax X lam0 (P_col_neq0 j); rewrite -/A A_col dot_ej mxE //.
Qed.

Definition sol : 'M[F]_n := \matrix_(i, j) (if i == j then 0 else P i j * - (1 / P j j)).

Lemma learn_ok : Base.obind (linalg_inv (ax lam (p_dense X))) (@scale_columns F n) = Ok sol.
Proof.
rewrite /linalg_inv -/A A_unit /= /scale_columns -/P.
by case: existsP => // -[j /eqP h]; have := P_pos j; rewrite h ltxx.
Qed.

(** The columns of the residual operator. *)
Lemma sol_col j : ej j - col j sol = (P j j)^-1 *: col j P.
Proof.
apply/matrixP => i k; rewrite ord1 !mxE eqxx andbT.
case: eqP => [->|_]; first by rewrite subr0 mulVf ?gt_eqF ?P_pos.
by rewrite /= sub0r div1r mulrN opprK mulrC.
Qed.

(** The loss of a column. *)
Definition col_loss (z : 'cV[F]_n) j : F :=
  sqnorm (X *m (ej j - z)) + \sum_i lam i * z i 0 ^+ 2.

Lemma ridge_loss_cols W : ridge_loss lam X W = \sum_j col_loss (col j W) j.
Proof.
rewrite /ridge_loss /col_loss big_split /= exchange_big /=; congr (_ + _); last first.
  rewrite exchange_big /=; apply: eq_bigr => j _; apply: eq_bigr => i _; by rewrite mxE.
apply: eq_bigr => j _; rewrite /sqnorm /dot; apply: eq_bigr => u _.
rewrite -expr2; congr (_ ^+ 2).
rewrite mulmxBr !mxE; congr (_ - _); last by apply: eq_bigr => i _; rewrite mxE.
rewrite (bigD1 j) //= big1 ?addr0; first by rewrite mxE !eqxx mulr1.
by move=> k hk; rewrite mxE (negPf hk) mulr0.
Qed.

Lemma col_loss_quad (z : 'cV[F]_n) j : z j 0 = 0 ->
  col_loss z j = dot (ej j - z) (A *m (ej j - z)) - lam j.
Proof.
move=> hz; rewrite dot_add_diagonal /col_loss -addrA; congr (_ + _).
rewrite (bigD1 j) //= [in RHS](bigD1 j) //= !mxE !eqxx hz subr0 expr1n mulr1 expr0n /= mulr0 add0r.
rewrite addrC addKr; apply: eq_bigr => i hi; rewrite !mxE (negPf hi) /= sub0r.
by rewrite sqrrN.
Qed.

Lemma col_loss_shift (z : 'cV[F]_n) j : z j 0 = 0 ->
  col_loss z j = col_loss (col j sol) j +
    dot (z - col j sol) (A *m (z - col j sol)).
Proof.
move=> hz.
have hs : col j sol j 0 = 0 by rewrite !mxE eqxx.
rewrite !col_loss_quad //; set v := ej j - col j sol; set h := z - col j sol.
have -> : ej j - z = v - h by rewrite /v /h opprB addrA subrK.
have hv : A *m v = (P j j)^-1 *: ej j by rewrite /v sol_col -scalemxAr A_col.
have hh : dot h (A *m v) = 0.
  rewrite hv dotZr dot_ej.
  have -> : h j 0 = z j 0 - col j sol j 0 by rewrite /h !mxE.
  by rewrite hz hs subr0 mulr0.
have hs' := dot_sym' v h A_sym; move: hh hs'; clearbody v h => hh hs'.
rewrite mulmxBr !dotDl !dotDr !dotNl !dotNr hs' hh; ring.
Qed.

Lemma ridge_loss_shift W : zero_diagonal W ->
  ridge_loss lam X W = ridge_loss lam X sol +
    \sum_j dot (col j (W - sol)) (A *m col j (W - sol)).
Proof.
move=> hW; rewrite !ridge_loss_cols -big_split /=; apply: eq_bigr => j _.
rewrite col_loss_shift; last by rewrite mxE.
have -> : col j (W - sol) = col j W - col j sol by apply/matrixP => i k; rewrite !mxE.
by [].
Qed.

Lemma sol_best : best_zero_diagonal (ridge_loss lam X) sol.
Proof.
have hp := posdef_ax X lam0; have hge := posdef_semi hp.
split; first by move=> i; rewrite mxE eqxx.
split=> V hV; rewrite (ridge_loss_shift hV).
  by rewrite ler_addl sumr_ge0 // => j _; apply: hge.
move/eqP; rewrite -subr_eq0 addrC addKr psumr_eq0; last by move=> j _; apply: hge.
move/allP => H; apply/eqP; rewrite -subr_eq0; apply/eqP/matrixP => i j; rewrite [RHS]mxE.
have /= /eqP h := H j (mem_index_enum _).
have : col j (V - sol) = 0.
  by apply/eqP/negPn/negP => /hp; rewrite -/A h ltxx.
by move/matrixP/(_ i 0); rewrite !mxE.
Qed.
End Fixed.

(** DenseSLIM. *)
Lemma ridge_loss_ext lam lam' X W : lam =1 lam' -> ridge_loss lam X W = ridge_loss lam' X W.
Proof.
move=> h; rewrite /ridge_loss; congr (_ + _).
by apply: eq_bigr => i _; apply: eq_bigr => j _; rewrite h.
Qed.

Lemma dense_slim_best reg X : 0 < reg ->
  exists W, dense_slim_learn reg X = Ok W /\
            best_zero_diagonal (ridge_loss (fun _ => reg) X) W.
Proof.
move=> h; exists (sol (fun _ => reg) X); split; first exact: learn_ok.
exact: sol_best.
Qed.

(** EDLAE. *)
Section Dropout.
Variable p : F.
Hypothesis p1 : 1 - p != 0.
Local Notation E f := (\sum_(S : {set 'I_n}) keep_prob p S * f S).

(** Expectation of a product of independent factors. *)
Lemma keep_prob_prod (g : 'I_n -> bool -> F) :
  E (fun S : {set 'I_n} => \prod_i g i (i \in S)) = \prod_i (p * g i false + (1 - p) * g i true).
Proof.
have E1 i : p * g i false + (1 - p) * g i true =
            \sum_(b : bool) (if b then 1 - p else p) * g i b.
  by rewrite big_bool /= addrC.
under [RHS]eq_bigr do rewrite E1.
rewrite bigA_distr_bigA /=.
rewrite (reindex_onto (fun f : {ffun 'I_n -> bool} => [set i | f i])
                      (fun S : {set 'I_n} => [ffun i => i \in S])) /=; last first.
  by move=> S _; apply/setP => i; rewrite inE ffunE.
rewrite (eq_bigl xpredT) /=; last first.
  by move=> f; apply/eqP/ffunP => i; rewrite ffunE inE.
apply: eq_bigr => f _; rewrite /keep_prob -big_split /=.
by apply: eq_bigr => i _; rewrite !inE.
Qed.

Lemma keep_prob_sum : E (fun=> 1) = 1.
Proof.
have := keep_prob_prod (fun _ _ => 1).
under [LHS]eq_bigr do rewrite big1_eq.
move=> ->; apply: big1 => i _; by rewrite !mulr1 addrC subrK.
Qed.

Lemma prod_at (i : 'I_n) (f : 'I_n -> F) : (forall k, k != i -> f k = 1) -> \prod_k f k = f i.
Proof. by move=> h; rewrite (bigD1 i) //= big1 ?mulr1. Qed.

Lemma keep_one i : E (fun S : {set 'I_n} => (i \in S)%:R) = 1 - p.
Proof.
have := keep_prob_prod (fun k b => if k == i then b%:R else 1).
have H S : \prod_k (if k == i then (k \in S)%:R else 1) = (i \in S)%:R :> F.
  by rewrite (prod_at (i := i)) ?eqxx // => k /negPf ->.
under [LHS]eq_bigr do rewrite H.
move=> ->; rewrite (prod_at (i := i)) ?eqxx; first by rewrite mulr0 add0r mulr1.
by move=> k /negPf ->; rewrite !mulr1 addrC subrK.
Qed.

Lemma keep_two i k : i != k -> E (fun S : {set 'I_n} => (i \in S)%:R * (k \in S)%:R) = (1 - p) * (1 - p).
Proof.
move=> hik.
have H (f : 'I_n -> F) : (forall l, l != i -> l != k -> f l = 1) -> \prod_l f l = f i * f k.
  move=> h; rewrite (bigD1 i) //= (bigD1 k) 1?eq_sym //= big1 ?mulr1 //.
  by move=> l /andP [h1 h2]; apply: h.
have := keep_prob_prod (fun l b => if (l == i) || (l == k) then b%:R else 1).
have HS S : \prod_l (if (l == i) || (l == k) then (l \in S)%:R else 1) =
            (i \in S)%:R * (k \in S)%:R :> F.
  by rewrite H ?eqxx ?orbT // => l /negPf -> /negPf ->.
under [LHS]eq_bigr do rewrite HS.
move=> ->; rewrite H ?eqxx ?orbT /=; first by rewrite mulr0 mulr1 add0r.
by move=> l /negPf -> /negPf ->; rewrite /= !mulr1 addrC subrK.
Qed.

Lemma keep_sum (I : Type) (r : seq I) (f : {set 'I_n} -> I -> F) :
  E (fun S : {set 'I_n} => \sum_(i <- r) f S i) = \sum_(i <- r) E (fun S : {set 'I_n} => f S i).
Proof. by rewrite exchange_big /=; apply: eq_bigr => S _; rewrite mulr_sumr. Qed.

Lemma keep_scale c (f : {set 'I_n} -> F) : E (fun S : {set 'I_n} => c * f S) = c * E f.
Proof. by rewrite mulr_sumr; apply: eq_bigr => S _; ring. Qed.

(** Mean and second moment of a dropped-out linear prediction. *)
Lemma keep_lin (c : 'I_n -> F) :
  E (fun S : {set 'I_n} => \sum_i (i \in S)%:R * c i) = (1 - p) * \sum_i c i.
Proof.
rewrite keep_sum mulr_sumr; apply: eq_bigr => i _.
under eq_bigr do rewrite (mulrC _ (c i)).
by rewrite keep_scale keep_one mulrC.
Qed.

Lemma keep_sq (c : 'I_n -> F) :
  E (fun S : {set 'I_n} => (\sum_i (i \in S)%:R * c i) ^+ 2) =
  (1 - p) * (1 - p) * (\sum_i c i) ^+ 2 + p * (1 - p) * \sum_i c i ^+ 2.
Proof.
have H (S : {set 'I_n}) : (\sum_i (i \in S)%:R * c i) ^+ 2 =
           \sum_i \sum_k (c i * c k) * ((i \in S)%:R * (k \in S)%:R).
  rewrite expr2 mulr_suml; apply: eq_bigr => i _; rewrite mulr_sumr.
  by apply: eq_bigr => k _; ring.
under [LHS]eq_bigr do rewrite H.
rewrite keep_sum expr2 mulr_suml !mulr_sumr -big_split /=; apply: eq_bigr => i _.
rewrite keep_sum mulr_sumr mulr_sumr.
rewrite (bigD1 i) //= [in RHS](bigD1 i) //= keep_scale.
have -> : E (fun S : {set 'I_n} => (i \in S)%:R * (i \in S)%:R) = 1 - p.
  rewrite -[RHS](keep_one i); apply: eq_bigr => S _.
  by case: (i \in S); rewrite ?mulr1 ?mulr0.
have -> : \sum_(k | k != i) E (fun S : {set 'I_n} => c i * c k * ((i \in S)%:R * (k \in S)%:R)) =
          \sum_(k | k != i) (1 - p) * (1 - p) * (c i * c k).
  by apply: eq_bigr => k hk; rewrite keep_scale keep_two 1?eq_sym // mulrC.
rewrite -mulr_sumr -mulr_sumr; ring.
Qed.

Lemma keep_err y (c : 'I_n -> F) :
  E (fun S : {set 'I_n} => (y - \sum_i (i \in S)%:R * (c i / (1 - p))) ^+ 2) =
  (y - \sum_i c i) ^+ 2 + p / (1 - p) * \sum_i c i ^+ 2.
Proof.
have H (S : {set 'I_n}) : (y - \sum_i (i \in S)%:R * (c i / (1 - p))) ^+ 2 =
  y ^+ 2 * 1 + (- 2%:R * y) * (\sum_i (i \in S)%:R * (c i / (1 - p)))
  + 1 * (\sum_i (i \in S)%:R * (c i / (1 - p))) ^+ 2 by ring.
under [LHS]eq_bigr do rewrite H 2!mulrDr.
rewrite !big_split /= !keep_scale keep_prob_sum keep_lin keep_sq -mulr_suml.
have -> : \sum_i (c i / (1 - p)) ^+ 2 = (\sum_i c i ^+ 2) / (1 - p) ^+ 2.
  by rewrite mulr_suml; apply: eq_bigr => i _; field.
have K a b : y ^+ 2 * 1 + - 2%:R * y * ((1 - p) * (a / (1 - p))) +
  1 * ((1 - p) * (1 - p) * (a / (1 - p)) ^+ 2 + p * (1 - p) * (b / (1 - p) ^+ 2)) =
  (y - a) ^+ 2 + p / (1 - p) * b by field.
exact: K.
Qed.

End Dropout.

Lemma dropout_ridge p reg X W : 1 - p != 0 ->
  dropout_loss p reg X W =
  ridge_loss (fun i => p / (1 - p) * (\sum_u X u i ^+ 2) + reg) X W.
Proof.
move=> hp; rewrite /dropout_loss /ridge_loss.
have H u : \sum_(S : {set 'I_n}) keep_prob p S *
     (\sum_j (X u j - \sum_i dropped p X S u i * W i j) ^+ 2) =
   \sum_j (X u j - \sum_i X u i * W i j) ^+ 2 +
   p / (1 - p) * \sum_i \sum_j X u i ^+ 2 * W i j ^+ 2.
  rewrite keep_sum [in RHS]exchange_big mulr_sumr -big_split /=; apply: eq_bigr => j _.
  have E0 := keep_err hp (X u j) (fun i => X u i * W i j).
  have HS (S : {set 'I_n}) : \sum_i dropped p X S u i * W i j =
              \sum_i (i \in S)%:R * (X u i * W i j / (1 - p)).
    apply: eq_bigr => i _; rewrite /dropped; case: (i \in S); last by rewrite !mul0r.
    by rewrite mul1r mulrAC.
  transitivity (\sum_(S : {set 'I_n}) keep_prob p S *
     (X u j - \sum_i (i \in S)%:R * (X u i * W i j / (1 - p))) ^+ 2).
    by apply: eq_bigr => S _; rewrite -HS.
  rewrite [LHS]E0; congr (_ + _ * _); by apply: eq_bigr => i _; rewrite exprMn.
under eq_bigr do rewrite H.
rewrite big_split /= -addrA; congr (_ + _).
rewrite -mulr_sumr exchange_big /= mulr_sumr mulr_sumr -big_split /=.
apply: eq_bigr => i _; rewrite exchange_big mulr_sumr mulr_sumr -big_split /=.
apply: eq_bigr => j _; rewrite -mulr_suml.
have K a b : p / (1 - p) * (a * b) + reg * b = (p / (1 - p) * a + reg) * b by ring.
exact: K.
Qed.

Lemma edlae_best reg p X : 0 < reg -> 0 <= p < 1 ->
  exists W, edlae_learn reg p X = Ok W /\ best_zero_diagonal (dropout_loss p reg X) W.
Proof.
move=> hr /andP [hp0 hp1].
have hq : 0 < 1 - p by rewrite subr_gt0.
have hP i : p_dense X i i = \sum_u X u i ^+ 2.
  by rewrite mxE; apply: eq_bigr => u _; rewrite mxE expr2.
pose lam i := p / (1 - p) * p_dense X i i + reg.
have hl i : 0 < lam i.
  rewrite /lam ltr_paddl // hP; apply: mulr_ge0; first by rewrite divr_ge0 // ltW.
  by apply: sumr_ge0 => u _; exact: sqr_ge0.
exists (sol lam X); split.
  by rewrite /edlae_learn gt_eqF // learn_ok.
have HE V : dropout_loss p reg X V = ridge_loss lam X V.
  by rewrite dropout_ridge ?gt_eqF //; apply: ridge_loss_ext => i; rewrite /lam hP.
have [h1 [h2 h3]] := sol_best X hl.
by split=> //; split=> V hV; rewrite !HE; [exact: h2|exact: h3].
Qed.

Lemma edlae_no_dropout reg X : edlae_learn reg 0 X = dense_slim_learn reg X.
Proof.
rewrite /edlae_learn subr0 oner_eq0 /dense_slim_learn; congr Base.obind; congr linalg_inv.
by apply/matrixP => i j; rewrite !mxE mul0r mul0r add0r.
Qed.

Lemma edlae_full_dropout reg X : edlae_learn reg 1 X = Fail ZeroDivision.
Proof. by rewrite /edlae_learn subrr eqxx. Qed.

(** An item nobody interacted with makes the unregularised system singular. *)
Lemma dense_slim_singular X (i : 'I_n) : (forall u, X u i = 0) ->
  dense_slim_learn 0 X = Fail LinAlgError.
Proof.
move=> h; rewrite /dense_slim_learn /linalg_inv.
have -> : (ax (fun=> 0) (p_dense X) \in unitmx) = false; last by [].
apply/negP => hu; set A := ax _ _ in hu.
have hA : A *m ej i = 0.
  apply/matrixP => k l; rewrite ord1 !mxE big1 // => j _; rewrite !mxE.
  case: (eqVneq j i) => [->|_]; last by rewrite mulr0.
  rewrite addr0 if_same big1 ?mul0r // => u _; by rewrite h mulr0.
have := mulKmx hu (ej i); rewrite hA mulmx0 => /matrixP/(_ i 0).
by rewrite !mxE !eqxx => /esym/eqP; rewrite oner_eq0.
Qed.

End Ease.

(** One user, two items, both bought. *)
Section Two.
Variable F : realFieldType.
Definition two_bought : 'M[F]_(1, 2) := const_mx 1.
Definition off_diagonal (c : F) : 'M[F]_2 := \matrix_(i, j) (if i == j then 0 else c).

Lemma ord2_ind (Q : 'I_2 -> Prop) : Q ord0 -> Q (lift ord0 ord0) -> forall i, Q i.
Proof.
move=> h0 h1 [[|[|//]] h].
  by have -> : Ordinal h = ord0 by apply: val_inj.
by have -> : Ordinal h = lift ord0 ord0 by apply: val_inj.
Qed.

Lemma two_sol (lam : 'I_2 -> F) (a : F) : 0 < a -> lam =1 (fun=> a) ->
  Base.obind (linalg_inv (add_diagonal lam (p_dense two_bought))) (@scale_columns F 2) =
  Ok (off_diagonal (1 / (1 + a))).
Proof.
move=> ha hla; have hl i : 0 < lam i by rewrite hla.
rewrite (learn_ok two_bought hl); apply: (congr1 (@Ok _)).
set A := add_diagonal lam (p_dense two_bought).
have a1 : 1 + a != 0 by rewrite gt_eqF // addr_gt0 ?ltr01.
have a3 : a != 0 by rewrite gt_eqF.
have a4 : 2%:R + a != 0 by rewrite gt_eqF // addr_gt0 ?ltr0n.
have a2 : a * (2%:R + a) != 0 by rewrite mulf_neq0.
pose B : 'M[F]_2 := \matrix_(i, j) ((if i == j then 1 + a else - 1) / (a * (2%:R + a))).
have hAB : A *m B = 1%:M.
  apply/matrixP; apply: ord2_ind; apply: ord2_ind;
    rewrite !mxE !big_ord_recl !big_ord0 !addr0 !mxE /= !big_ord_recl !big_ord0 !addr0 !mxE !hla;
    by field; rewrite ?a3 ?a4.
have [hA _] := mulmx1_unit hAB.
have hB : invmx A = B by rewrite -[LHS]mulmx1 -hAB mulKmx.
apply/matrixP; apply: ord2_ind; apply: ord2_ind; rewrite !mxE -/A hB !mxE //=;
  by field; rewrite ?a1 ?a3 ?a4.
Qed.

Lemma two_slim : dense_slim_learn 1 two_bought = Ok (off_diagonal (1 / 2%:R)).
Proof. by rewrite /dense_slim_learn (@two_sol _ 1) ?ltr01 // -natrD. Qed.

Lemma two_edlae : edlae_learn 1 (1 / 2%:R) two_bought = Ok (off_diagonal (1 / 3%:R)).
Proof.
have h2 : 2%:R != 0 :> F by rewrite pnatr_eq0.
have h : 1 - 1 / 2%:R = 1 / 2%:R :> F by field.
rewrite /edlae_learn h mulf_eq0 oner_eq0 invr_eq0 (negPf h2) /= (@two_sol _ 2%:R) ?ltr0n //.
move=> i; rewrite mxE big_ord_recl big_ord0 addr0 !mxE; by field; rewrite ?h2.
Qed.
End Two.
