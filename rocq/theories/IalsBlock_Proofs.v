(** iALS++ and coordinate descent are exact block-coordinate descent. *)
From Verif Require Import Base Sched_Model.
From mathcomp Require Import all_ssreflect all_algebra.
From mathcomp.algebra_tactics Require Import ring.
Import Order.TTheory GRing.Theory Num.Theory.
From Verif Require Import Ials_Model Ials_Spec IalsLin_Proofs IalsCg_Proofs IalsRow_Proofs.
From Verif Require Import IalsPool_Proofs IalsGram_Proofs IalsStep_Proofs IalsSub_Proofs.
Set Implicit Arguments.
Unset Strict Implicit.
Unset Printing Implicit Defensive.
Local Open Scope ring_scope.

Section BlockMin.
Variable F : realFieldType.

Lemma block_minI K (A : 'M[F]_K) b blk x d : A^T = A -> uniq blk ->
  posdef (sel blk *m A *m (sel blk)^T) ->
  (sel blk *m A *m (sel blk)^T) *m d = sel blk *m (A *m x - b) ->
  block_min (quad A b) blk x (x - (sel blk)^T *m d).
Proof.
move=> hs hu hp hd; set x' := x - _.
have hag : agree_outside blk x' x.
  by move=> k hk; rewrite mxE [in X in _ + X]mxE selT_out // subr0.
have hE y : agree_outside blk y x ->
    y = x' + (sel blk)^T *m (sel blk *m (y - x')).
  move=> hy; rewrite (sel_only hu); first by rewrite addrC subrK.
  move=> k hk.
  by rewrite mxE [in X in _ + X]mxE hy // hag // subrr.
have hq y : agree_outside blk y x ->
    let e := sel blk *m (y - x') in
    quad A b y = quad A b x' + dot e ((sel blk *m A *m (sel blk)^T) *m e).
  by move=> hy e; rewrite {1}(hE y hy); apply: coord_shift.
split=> //; split=> y hy.
  by rewrite (hq y hy) ler_addl; apply: (posdef_semi hp).
rewrite (hq y hy) => /eqP; rewrite -subr_eq0 addrC addKr => /eqP h0.
have h1 : sel blk *m (y - x') = 0.
  by case: (altP (sel blk *m (y - x') =P 0)) => // /hp; rewrite h0 ltxx.
by rewrite (hE y hy) h1 mulmx0 addr0.
Qed.

Lemma block_min_eq K (f g : 'cV[F]_K -> F) c blk x x' : (forall y, f y = g y + c) ->
  block_min g blk x x' -> block_min f blk x x'.
Proof.
move=> hfg [h1 [h2 h3]]; split=> //; split=> y hy; rewrite !hfg; first by rewrite ler_add2r h2.
by move/addIr; apply: h3.
Qed.

Lemma block_path_cat K (f : 'cV[F]_K -> F) b1 b2 x y z :
  block_path f b1 x y -> block_path f b2 y z -> block_path f (b1 ++ b2) x z.
Proof. by elim: b1 x => [|b b1 IH] x /= => [->|[x1 h1 h2] h3] //; exists x1 => //; apply: IH. Qed.

Lemma block_path_le K (f : 'cV[F]_K -> F) blks x y : block_path f blks x y -> f y <= f x.
Proof.
elim: blks x => [|b bs IH] x /= => [->|[x1 [_ [h1 _]] h2]] //.
by apply: le_trans (IH _ h2) _; apply: h1.
Qed.

Lemma block_min_unique K (f : 'cV[F]_K -> F) blk x y z : block_min f blk x y -> block_min f blk x z -> y = z.
Proof.
move=> [h1 [h2 h3]] [k1 [k2 k3]]; apply: k3 => //; apply/eqP.
by rewrite eq_le h2 // k2.
Qed.

Lemma block_path_unique K (f : 'cV[F]_K -> F) blks x y z :
  block_path f blks x y -> block_path f blks x z -> y = z.
Proof.
elim: blks x => [|b bs IH] x /= => [-> ->|[u h1 h2] [v k1 k2]] //.
by move: k2; rewrite -(block_min_unique h1 k1); apply: IH h2.
Qed.

(** Equality of the values means that nothing has moved. *)
Lemma block_path_strict K (f : 'cV[F]_K -> F) blks x y : block_path f blks x y -> f y = f x -> y = x.
Proof.
elim: blks x => [|b bs IH] x /= => [->|[x1 [h0 [h1 h1']] h2]] // E.
have le1 := h1 x (fun _ _ => erefl); have le2 := block_path_le h2.
have E1 : f x1 = f x by apply/eqP; rewrite eq_le le1 -E.
have Ex : x = x1 by apply: h1'.
by apply: IH => //; move: h2; rewrite -Ex.
Qed.
End BlockMin.

Section Block.
Variable F : realFieldType.
Variable pow : F -> F -> F.
Variable cfg : model_config F.
Notation bias := (observation_bias cfg).
Notation creg := (compute_reg pow cfg).

(** *** One row *)
Lemma dimrange_row_ok n K (V : 'M[F]_(n, K)) rx o blk x st' : uniq blk -> represents_row rx o ->
  dimrange_row pow cfg V (gram_of cfg V) rx blk x (rowsub (pick blk) x, preds V rx x) = Ok st' ->
  exists2 d, st' = (sel blk *m x - d, preds V rx (x - (sel blk)^T *m d)) &
    block_min (row_loss pow cfg o V 0) blk x (x - (sel blk)^T *m d).
Proof.
move=> hu hr; rewrite dimrange_rowE ?gram_sym //; case: ifP => // _.
set A := rowA _ _ _ _; set b := rowb _ _ _ _ _.
have hs : A^T = A := rowA_sym V rx _ (gram_sym cfg V).
have hs' : (sel blk *m A *m (sel blk)^T)^T = sel blk *m A *m (sel blk)^T.
  by rewrite !trmx_mul trmxK hs mulmxA.
case E: (llt_solve _ _) => [d|] // [<-]; exists d => //.
apply: (block_min_eq (fun y => row_lossE pow cfg V 0 y hr)).
by apply: block_minI => //; [apply: (llt_some hs' E)|apply: (llt_solves hs' E)].
Qed.

Lemma sub_posdef K (A : 'M[F]_K) blk : uniq blk -> posdef A -> posdef (sel blk *m A *m (sel blk)^T).
Proof.
move=> hu hp y hy; rewrite -!mulmxA dot_mul_tr; apply: hp.
apply: contra hy => /eqP h; rewrite -(mul1mx y) -(sel_id _ hu) -mulmxA h mulmx0 //.
Qed.

Lemma dimrange_row_total n K (V : 'M[F]_(n, K)) rx blk x : uniq blk -> 0 <= alpha0 cfg -> ~~ has_neg rx ->
  0 < creg (size rx) n ->
  exists st', dimrange_row pow cfg V (gram_of cfg V) rx blk x (rowsub (pick blk) x, preds V rx x) = Ok st'.
Proof.
move=> hu ha hn hrg; rewrite dimrange_rowE ?gram_sym // (negbTE hn) andbF.
set A := rowA _ _ _ _; set b := rowb _ _ _ _ _.
have hs : A^T = A := rowA_sym V rx _ (gram_sym cfg V).
have hs' : (sel blk *m A *m (sel blk)^T)^T = sel blk *m A *m (sel blk)^T.
  by rewrite !trmx_mul trmxK hs mulmxA.
have hp := sub_posdef hu (rowA_posdef V (gram_semi V ha) hn hrg).
have [d [-> _]] := llt_posdef (sel blk *m (A *m x - b)) hs' hp.
by eexists.
Qed.

(** *** One row, one dimension *)
Lemma update_fold1 (T : Type) (cf wf : T -> F) l p B :
  foldl (fun acc t => (acc.1 + cf t, acc.2 + wf t)) (p, B) l =
  (p + \sum_(t <- l) cf t, B + \sum_(t <- l) wf t).
Proof.
by elim: l p B => [|e rx IH] p B /=; rewrite ?big_nil ?addr0 // IH !big_cons !addrA.
Qed.

Lemma icd_rowE n K (V : 'M[F]_(n, K)) P rx k x : P^T = P ->
  let A := rowA V P rx (creg (size rx) n) in
  let b := rowb cfg V rx (creg (size rx) n) 0 in
  let d := (A *m x - b) k 0 / A k k in
  icd_row pow cfg V P rx k x (x k 0, preds V rx x) =
  if A k k == 0 then Fail NotANumber else Ok (x k 0 - d, preds V rx (x - d *: delta_mx k 0)).
Proof.
move=> hP A b d; rewrite /icd_row /= zip_preds foldl_mapE /=.
rewrite (update_fold1 (fun e : 'I_n * F => e.2 * V e.1 k * V e.1 k)
           (fun e => (e.2 * (dot x (fvec V e.1) - 1) - bias) * V e.1 k)).
set rg := creg (size rx) n.
have EA : P k k + \sum_(e <- rx) e.2 * V e.1 k * V e.1 k + rg = A k k.
  rewrite /A /rowA !mxE eqxx mulr1n; congr (_ + _ + _); rewrite summxE.
  by apply: eq_bigr => e _; rewrite mxE outerE !fvecE mulrA.
have Eb : dot (fvec P k) x + rg * x k 0 + \sum_(e <- rx) (e.2 * (dot x (fvec V e.1) - 1) - bias) * V e.1 k
          = (A *m x - b) k 0.
  rewrite /A rowA_mul /b /rowb scaler0 add0r !mxE -!addrA; congr (_ + _).
    by rewrite /dot; apply: eq_bigr => l _; rewrite fvecE.
  rewrite [RHS]addrCA; congr (_ + _).
  rewrite !summxE -sumrB; apply: eq_bigr => e _.
  by rewrite !mxE (dotC x); ring.
rewrite EA Eb; case: ifP => // _; congr (Ok (_, _)).
rewrite /preds -map_comp; apply: eq_map => e /=.
rewrite dotDl dotNl dotZl; congr (_ - _ * _).
rewrite /dot (bigD1 k) //= !mxE !eqxx mul1r big1 ?addr0 // => l hl.
by rewrite mxE (negbTE hl) mul0r.
Qed.

Lemma pick1 K (k : 'I_K) t : pick [:: k] t = k.
Proof. by rewrite /pick (tnth_nth k) ord1. Qed.

Lemma icd_row_ok n K (V : 'M[F]_(n, K)) rx o k x st' : 0 <= alpha0 cfg -> 0 <= creg (size rx) n ->
  ~~ has_neg rx -> represents_row rx o ->
  icd_row pow cfg V (gram_of cfg V) rx k x (x k 0, preds V rx x) = Ok st' ->
  exists2 d, st' = (x k 0 - d, preds V rx (x - d *: delta_mx k 0)) &
    block_min (row_loss pow cfg o V 0) [:: k] x (x - d *: delta_mx k 0).
Proof.
move=> ha hg hn hr; rewrite icd_rowE ?gram_sym //.
set A := rowA _ _ _ _; set b := rowb _ _ _ _ _.
have hs : A^T = A := rowA_sym V rx _ (gram_sym cfg V).
have hsemi : possemi A := rowA_semi V (gram_semi V ha) hn hg.
case: eqP => // /eqP h0 [<-]; eexists; first reflexivity.
set d := _ / _.
have hk : 0 < A k k.
  rewrite lt0r h0 /=; have := hsemi (delta_mx k 0); rewrite /dot (bigD1 k) //= mxE !eqxx mul1r.
  rewrite big1 ?addr0 => [|l hl]; last by rewrite mxE (negbTE hl) mul0r.
  by rewrite -colE mxE.
have hSAS : sel [:: k] *m A *m (sel [:: k])^T = (A k k)%:M.
  by apply/matrixP => s t; rewrite -sel_sub !mxE !pick1 !ord1.
have -> : d *: delta_mx k 0 = (sel [:: k])^T *m (d%:M : 'cV[F]_(size [:: k])).
  apply/matrixP => l j; rewrite !mxE big_ord1 !mxE pick1 (ord1 j) eqxx mulr1n andbT.
  by rewrite mulrC.
apply: (block_min_eq (fun y => row_lossE pow cfg V 0 y hr)).
apply: block_minI => //.
  rewrite hSAS => y hy; rewrite mul_scalar_mx dotZr mulr_gt0 //.
  by rewrite -/(sqnorm y) sqnorm_gt0.
have : A k k * d = (A *m x - b) k 0 by rewrite mulrC divfK.
rewrite hSAS; move: (A *m x - b) (A k k) (d) => w a d1 hd; rewrite mul_scalar_mx sel_mul.
by apply/matrixP => s t; rewrite !mxE pick1 !ord1 eqxx mulr1n.
Qed.

Lemma icd_row_total n K (V : 'M[F]_(n, K)) rx k x : 0 <= alpha0 cfg -> ~~ has_neg rx ->
  0 < creg (size rx) n ->
  exists st', icd_row pow cfg V (gram_of cfg V) rx k x (x k 0, preds V rx x) = Ok st'.
Proof.
move=> ha hn hg; rewrite icd_rowE ?gram_sym //; case: eqP => [h0|_]; last by eexists.
have hp := rowA_posdef V (gram_semi V ha) hn hg.
have : delta_mx k 0 != 0 :> 'cV[F]_K.
  by apply/eqP => /matrixP /(_ k 0); rewrite !mxE !eqxx => /eqP; rewrite oner_eq0.
move/hp; rewrite /dot (bigD1 k) //= mxE !eqxx mul1r.
rewrite big1 ?addr0 => [|l hl]; last by rewrite mxE (negbTE hl) mul0r.
by rewrite -colE mxE h0 ltxx.
Qed.

(** *** Whole matrices *)
Section Pass.
Variables (m n K : nat) (V : 'M[F]_(n, K)) (X : sparse F m n) (obs : observations F m n) (nt : nat).
Hypothesis hX : represents X obs.
Hypothesis hnt : (0 < nt)%N.
Notation P := (gram_of cfg V).
Notation rloss i := (row_loss pow cfg (obs i) V 0).

Definition consistent (st : 'M[F]_(m, K) * {ffun 'I_m -> seq F}) : Prop :=
  forall i, st.2 i = preds V (X i) (fvec st.1 i).

Lemma prediction_ok T sched pr : prediction X T V nt sched = Ok pr -> consistent (T, pr).
Proof. by move=> /(step_table_ok hnt) h i /=; case: (h i). Qed.

Lemma step_dimrange_ok sched ds de st st' : consistent st ->
  step_dimrange pow cfg V P X nt sched ds de st = Ok st' ->
  (de <= K)%N /\ consistent st' /\
  forall i, block_min (rloss i) (between K ds de) (fvec st.1 i) (fvec st'.1 i).
Proof.
move=> hc; rewrite /step_dimrange; case: ifP => // hde E; split=> //.
case: (omap_ok E) => t ht -> /=; have hu := between_uniq K ds de.
have h i := step_table_ok hnt ht i.
have {}h i : exists2 d, t i = (sel (between K ds de) *m fvec st.1 i - d,
      preds V (X i) (fvec st.1 i - (sel (between K ds de))^T *m d)) &
    block_min (rloss i) (between K ds de) (fvec st.1 i) (fvec st.1 i - (sel (between K ds de))^T *m d).
  by apply: (dimrange_row_ok hu (hX i)); move: (h i); rewrite ffunE hc.
have hw i d : t i = (sel (between K ds de) *m fvec st.1 i - d,
      preds V (X i) (fvec st.1 i - (sel (between K ds de))^T *m d)) ->
    fvec (write_cols st.1 [ffun i => (t i).1]) i = fvec st.1 i - (sel (between K ds de))^T *m d.
  by move=> ti; apply: (write_cols_row hu); rewrite ffunE ti.
split=> i; case: (h i) => d hd hb; rewrite (hw i d hd) //.
by rewrite ffunE hd.
Qed.

Hypothesis ha : 0 <= alpha0 cfg.
Hypothesis hg : forall i, 0 <= creg (size (X i)) n.
Hypothesis hn : forall i, ~~ has_neg (X i).

Lemma icd_row_write (T : 'M[F]_(m, K)) (t : {ffun 'I_m -> F * seq F}) k i d : (t i).1 = T i k - d ->
  fvec (\matrix_(i, k') (if k' == k then (t i).1 else T i k')) i = fvec T i - d *: delta_mx k 0.
Proof.
move=> ht; apply/matrixP => l j; rewrite ord1 fvecE !mxE eqxx andbT; case: eqP => [->|_].
  by rewrite ht mulr1.
by rewrite mulr0 subr0.
Qed.

Lemma step_icd_ok sched k st st' : consistent st ->
  step_icd_dim pow cfg V P X nt sched k st = Ok st' ->
  consistent st' /\ forall i, block_min (rloss i) [:: k] (fvec st.1 i) (fvec st'.1 i).
Proof.
move=> hc; rewrite /step_icd_dim => E; case: (omap_ok E) => t ht -> /=.
have h i : exists2 d, t i = (fvec st.1 i k 0 - d, preds V (X i) (fvec st.1 i - d *: delta_mx k 0)) &
    block_min (rloss i) [:: k] (fvec st.1 i) (fvec st.1 i - d *: delta_mx k 0).
  apply: (icd_row_ok ha (hg i) (hn i) (hX i)).
  by move: (step_table_ok hnt ht i); rewrite ffunE hc fvecE.
by split=> i; case: (h i) => d hd hb; rewrite (@icd_row_write _ _ _ _ d) ?hd ?fvecE //= ffunE hd.
Qed.

Lemma between_block dim c : (0 < dim)%N ->
  between K (c * dim) (minn (c * dim + dim) K) = [seq k : 'I_K <- enum 'I_K | (k %/ dim == c)%N].
Proof.
move=> hd; apply: eq_filter => k /=; rewrite leq_min ltn_ord andbT eq_sym eqn_leq leq_divRL //.
by congr andb; rewrite -[in RHS]ltnS ltn_divLR // mulSn addnC.
Qed.

Lemma dim_loop_ok sch dim fuel c c1 st st' : (0 < dim)%N -> consistent st ->
  dim_loop pow cfg V P X nt sch dim fuel (c * dim) c1 st = Ok st' ->
  consistent st' /\
  forall i, block_path (rloss i)
     [seq [seq k : 'I_K <- enum 'I_K | (k %/ dim == c)%N] | c <- iota c ((K + dim - 1) %/ dim - c)]
     (fvec st.1 i) (fvec st'.1 i).
Proof.
move=> hd; have hN q : (q * dim < K)%N = (q < (K + dim - 1) %/ dim)%N.
  rewrite leq_divRL // mulSn -(ltn_add2l dim) -addnBA // [X in _ = (_ <= X)%N]addnC.
  by case: (dim) hd => // d' _; rewrite subn1 /= !addSn ltnS addnC.
have h0 q : (q * dim < K)%N = false -> ((K + dim - 1) %/ dim - q = 0)%N.
  by rewrite hN => h; apply/eqP; rewrite subn_eq0 leqNgt h.
elim: fuel c c1 st => [|fuel IH] c c1 st hc /=.
  by case: ifP => // hlt [<-]; split=> // i; rewrite h0.
case: ifP => hlt.
  move=> E; case: (obind_ok E) => st1 E1 E2.
  case: (step_dimrange_ok hc E1) => _ [hc1 hb].
  move: E2; rewrite addnC -mulSn => E2; case: (IH _ _ _ hc1 E2) => hc' hp; split=> // i.
  rewrite hN in hlt; rewrite -(subnSK hlt) /=; exists (fvec st1.1 i) => //.
  by move: (hb i); rewrite between_block.
by case=> <-; split=> // i; rewrite h0.
Qed.

Lemma ialspp_pass_ok dim sch T T' : (0 < dim)%N ->
  ialspp_pass pow cfg V P X nt dim sch T = Ok T' ->
  forall i, block_path (rloss i) (dim_blocks K dim) (fvec T i) (fvec T' i).
Proof.
move=> hd; rewrite /ialspp_pass => E; case: (obind_ok E) => pr E1 {}E.
case: (omap_ok E) => st {}E ->.
by case: (@dim_loop_ok _ _ K 0 1 _ _ hd (prediction_ok E1) E) => _ h i; move: (h i); rewrite subn0.
Qed.

Lemma icd_pass_ok sch T T' : icd_pass pow cfg V P X nt sch T = Ok T' ->
  forall i, block_path (rloss i) (single_dims K) (fvec T i) (fvec T' i).
Proof.
rewrite /icd_pass => E; case: (obind_ok E) => pr E1 {}E.
case: (omap_ok E) => st {}E ->; have hc := prediction_ok E1.
have {1}-> : T = (T, pr).1 by [].
move: (T, pr) hc E; rewrite /single_dims; elim: (enum 'I_K) => [|k ks IH] st0 hc /=; first by case=> <-.
move=> E; case: (obind_ok E) => st1 {}E1 {}E i.
case: (step_icd_ok hc E1) => hc1 hb; exists (fvec st1.1 i) => //.
exact: IH hc1 E i.
Qed.

Lemma repeat_ok (f : nat -> 'M[F]_(m, K) -> outcome 'M[F]_(m, K)) blks :
  (forall c T T', f c T = Ok T' -> forall i, block_path (rloss i) blks (fvec T i) (fvec T' i)) ->
  forall iter c T T', repeat_pass f iter c T = Ok T' ->
  forall i, block_path (rloss i) (flatten (nseq iter blks)) (fvec T i) (fvec T' i).
Proof.
move=> hf; elim=> [|it IH] c T T' /=; first by case=> <-.
move=> E; case: (obind_ok E) => T1 E1 {}E i.
exact: block_path_cat (hf _ _ _ E1 i) (IH _ _ _ E i).
Qed.

(** Totality. *)
Lemma omap_total (A B : Type) (f : A -> B) x : (exists a, x = Ok a) -> exists b, omap f x = Ok b.
Proof. by case=> a ->; eexists. Qed.
Hypothesis hg' : forall i, 0 < creg (size (X i)) n.

Lemma prediction_fair T sched : fair m nt sched -> exists pr, prediction X T V nt sched = Ok pr.
Proof. by move=> hf; apply: step_table_fair => // i; eexists. Qed.

Lemma step_dimrange_fair sched ds de st : fair m nt sched -> (de <= K)%N -> consistent st ->
  exists st', step_dimrange pow cfg V P X nt sched ds de st = Ok st'.
Proof.
move=> hf hde hc; rewrite /step_dimrange hde.
apply: omap_total; apply: step_table_fair => // i; rewrite ffunE hc.
exact: (dimrange_row_total V _ (between_uniq K ds de) ha (hn i) (hg' i)).
Qed.

Lemma step_icd_fair sched k st : fair m nt sched -> consistent st ->
  exists st', step_icd_dim pow cfg V P X nt sched k st = Ok st'.
Proof.
move=> hf hc; rewrite /step_icd_dim.
apply: omap_total; apply: step_table_fair => // i; rewrite ffunE hc -fvecE.
exact: (icd_row_total V k _ ha (hn i) (hg' i)).
Qed.

Lemma dim_loop_fair sch dim fuel cur c1 st : (forall c, fair m nt (sch c)) -> (0 < dim)%N -> (K <= fuel + cur)%N ->
  consistent st -> exists st', dim_loop pow cfg V P X nt sch dim fuel cur c1 st = Ok st'.
Proof.
move=> hf hd; elim: fuel cur c1 st => [|fuel IH] cur c1 st hK hc /=.
  by rewrite ltnNge -(add0n cur) hK; eexists.
case: ifP => hlt; last by eexists.
have [st1 E1] := step_dimrange_fair cur (hf c1) (geq_minr (cur + dim) K) hc.
rewrite E1 /=; apply: IH; last by case: (step_dimrange_ok hc E1) => _ [].
by apply: leq_trans hK _; rewrite addSnnS leq_add2l -addn1 leq_add2l.
Qed.

Lemma ialspp_pass_fair dim sch T : (forall c, fair m nt (sch c)) -> (0 < dim)%N ->
  exists T', ialspp_pass pow cfg V P X nt dim sch T = Ok T'.
Proof.
move=> hf hd; rewrite /ialspp_pass; have [pr E] := prediction_fair T (hf 0%N); rewrite E /=.
have [|st' ->] := @dim_loop_fair sch dim K 0 1 (T, pr) hf hd _ (prediction_ok E); first by rewrite addn0.
by eexists.
Qed.

Lemma icd_pass_fair sch T : (forall c, fair m nt (sch c)) -> exists T', icd_pass pow cfg V P X nt sch T = Ok T'.
Proof.
move=> hf; rewrite /icd_pass; have [pr E] := prediction_fair T (hf 0%N); rewrite E /=.
suff [st' ->] : exists st', ofold (fun st (k : 'I_K) => step_icd_dim pow cfg V P X nt (sch k.+1) k st) (enum 'I_K) (T, pr) = Ok st'.
  by eexists.
have := prediction_ok E; move: (T, pr) => st; elim: (enum 'I_K) st => [|k ks IH] st hc /=; first by eexists.
have [st1 E1] := step_icd_fair k (hf k.+1) hc.
by rewrite E1 /=; apply: IH; case: (step_icd_ok hc E1).
Qed.

Lemma repeat_fair (A : Type) (f : nat -> A -> outcome A) : (forall c a, exists a', f c a = Ok a') ->
  forall iter c a, exists a', repeat_pass f iter c a = Ok a'.
Proof.
move=> hf; elim=> [|it IH] c a /=; first by eexists.
by have [a1 ->] := hf c a; apply: IH.
Qed.
End Pass.
End Block.
