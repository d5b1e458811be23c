(** iALS++ (blocks of dimensions) and coordinate descent. *)
From Verif Require Import Base Sched_Model.
From mathcomp Require Import all_ssreflect all_algebra.
From mathcomp.algebra_tactics Require Import ring.
Import Order.TTheory GRing.Theory Num.Theory.
From Verif Require Import Ials_Model Ials_Spec IalsLin_Proofs IalsCg_Proofs IalsRow_Proofs.
From Verif Require Import IalsPool_Proofs IalsGram_Proofs IalsStep_Proofs.
Set Implicit Arguments.
Unset Strict Implicit.
Unset Printing Implicit Defensive.
Local Open Scope ring_scope.

Section Sel.
Variable F : realFieldType.
Variables (K : nat) (blk : seq 'I_K).

Definition sel : 'M[F]_(size blk, K) := \matrix_(t, k) (k == pick blk t)%:R.

Lemma sel_mul p (M : 'M[F]_(K, p)) : sel *m M = rowsub (pick blk) M.
Proof.
apply/matrixP => t j; rewrite !mxE (bigD1 (pick blk t)) //= mxE eqxx mul1r big1 ?addr0 // => k hk.
by rewrite mxE (negbTE hk) mul0r.
Qed.
Lemma sel_sub (M : 'M[F]_K) : mxsub (pick blk) (pick blk) M = sel *m M *m sel^T.
Proof.
apply/matrixP => s t; rewrite sel_mul !mxE (bigD1 (pick blk t)) //= !mxE eqxx mulr1 big1 ?addr0 // => k hk.
by rewrite !mxE (negbTE hk) mulr0.
Qed.
Lemma sel_fvec n (V : 'M[F]_(n, K)) j : fvec (colsub (pick blk) V) j = sel *m fvec V j.
Proof. by rewrite sel_mul; apply/matrixP => t u; rewrite !mxE. Qed.

Hypothesis hu : uniq blk.

Lemma pick_inj : injective (pick blk).
Proof.
move=> s t; rewrite /pick !(tnth_nth (pick blk s)) => /eqP.
by rewrite nth_uniq ?ltn_ord // => /eqP h; apply: val_inj.
Qed.
Lemma sel_id : sel *m sel^T = 1%:M.
Proof.
apply/matrixP => s t; rewrite sel_mul !mxE.
by rewrite (inj_eq pick_inj).
Qed.

Lemma pick_index k (h : (index k blk < size blk)%N) : pick blk (Ordinal h) = k.
Proof. by rewrite /pick (tnth_nth k) /= nth_index // -index_mem. Qed.

Lemma selT_mul (d : 'cV[F]_(size blk)) k : (sel^T *m d) k 0 = if insub (index k blk) is Some t then d t 0 else 0.
Proof.
rewrite mxE; case: insubP => [t ht Et|hk].
  have hp : pick blk t = k.
    have h' : (index k blk < size blk)%N by [].
    by rewrite -(pick_index h'); congr pick; apply: val_inj.
  rewrite (bigD1 t) //= !mxE hp eqxx mul1r big1 ?addr0 // => s hs.
  rewrite !mxE -hp (inj_eq pick_inj) (eq_sym t) (negbTE hs) mul0r //.
apply: big1 => t _; rewrite !mxE; case: eqP => [hk'|_]; last by rewrite mul0r.
by case/negP: hk; rewrite index_mem hk' /pick mem_tnth.
Qed.

Lemma selT_out (d : 'cV[F]_(size blk)) k : k \notin blk -> (sel^T *m d) k 0 = 0.
Proof. by move=> h; rewrite selT_mul insubF // index_mem (negbTE h). Qed.

(** A vector that is zero outside the block is determined by the block. *)
Lemma sel_only (w : 'cV[F]_K) : (forall k, k \notin blk -> w k 0 = 0) -> sel^T *m (sel *m w) = w.
Proof.
move=> h; apply/matrixP => k j; rewrite ord1 selT_mul; case: insubP => [t ht Et|hk].
  rewrite sel_mul !mxE; congr (w _ _).
  have h' : (index k blk < size blk)%N by [].
  by rewrite -[RHS](pick_index h'); congr pick; apply: val_inj.
by rewrite h // -index_mem.
Qed.

Lemma write_cols_row m (T : 'M[F]_(m, K)) (S : {ffun 'I_m -> 'cV[F]_(size blk)}) i d :
  S i = sel *m fvec T i - d -> fvec (write_cols T S) i = fvec T i - sel^T *m d.
Proof.
move=> hS; apply/matrixP => k j; rewrite ord1 !fvecE ![in LHS]mxE [in RHS]mxE [in X in _ + X]mxE fvecE.
rewrite selT_mul; case: insubP => [t ht Et|hk]; last by rewrite oppr0 addr0.
rewrite hS mxE [in X in _ + X]mxE sel_mul mxE fvecE; congr (T i _ - _).
have h' : (index k blk < size blk)%N by [].
by rewrite -[RHS](pick_index h'); congr pick; apply: val_inj.
Qed.
End Sel.
Arguments sel {F K} blk.

Lemma between_uniq n s e : uniq (between n s e).
Proof. by rewrite filter_uniq // enum_uniq. Qed.

Section Sub.
Variable F : realFieldType.
Variable pow : F -> F -> F.
Variable cfg : model_config F.
Notation bias := (observation_bias cfg).
Notation creg := (compute_reg pow cfg).

Lemma update_fold (T : Type) K (cf wf : T -> F) (vf : T -> 'cV[F]_K) l st B :
  let res := foldl (fun acc t => (add_row acc.1 (vf t) (cf t), acc.2 + wf t *: vf t)) (st, B) l in
  sym_upper (consume res.1.1 res.1.2) = sym_upper (consume st.1 st.2) + \sum_(t <- l) cf t *: outer (vf t) /\
  res.2 = B + \sum_(t <- l) wf t *: vf t.
Proof.
elim: l st B => [|e rx IH] st B /=; first by rewrite !big_nil !addr0.
have [-> ->] := IH (add_row st (vf e) (cf e)) (B + wf e *: vf e).
by rewrite !big_cons add_row_sum !addrA.
Qed.

Lemma foldl_mapE (T1 T2 R : Type) (h : T1 -> T2) (g : R -> T2 -> R) z l :
  foldl g z [seq h i | i <- l] = foldl (fun a i => g a (h i)) z l.
Proof. by elim: l z => [|a l IH] z //=. Qed.

Definition preds n K (V : 'M[F]_(n, K)) (rx : seq ('I_n * F)) (x : 'cV[F]_K) : seq F :=
  [seq dot x (fvec V e.1) | e <- rx].

Lemma zip_preds n K (V : 'M[F]_(n, K)) rx x :
  zip rx (preds V rx x) = [seq (e, dot x (fvec V e.1)) | e <- rx].
Proof. by rewrite /preds; elim: rx => [|e rx IH] //=; rewrite IH. Qed.

Lemma dimrange_rowE n K (V : 'M[F]_(n, K)) P rx blk x : uniq blk -> P^T = P ->
  let S := sel blk in
  let A := rowA V P rx (creg (size rx) n) in
  let b := rowb cfg V rx (creg (size rx) n) 0 in
  dimrange_row pow cfg V P rx blk x (rowsub (pick blk) x, preds V rx x) =
  if (0 < size blk)%N && has_neg rx then Fail NotANumber
  else match llt_solve (S *m A *m S^T) (S *m (A *m x - b)) with
       | None => Fail NotANumber
       | Some d => Ok (S *m x - d, preds V rx (x - S^T *m d))
       end.
Proof.
move=> hu hP S A b; rewrite /dimrange_row /= zip_preds foldl_mapE /=.
set rg := creg (size rx) n.
have := update_fold (fun e : 'I_n * F => e.2) (fun e => e.2 * (dot x (fvec V e.1) - 1) - bias)
          (fun e => fvec (colsub (pick blk) V) e.1) rx (mxsub (pick blk) (pick blk) P, [::])
          (rowsub (pick blk) P *m x + rg *: rowsub (pick blk) x).
case: (foldl _ _ _) => [[T buf] B] /= [h1 h2].
have hs : (mxsub (pick blk) (pick blk) P)^T = mxsub (pick blk) (pick blk) P.
  by rewrite sel_sub !trmx_mul trmxK hP mulmxA.
rewrite sym_upper_D h1 sym_upper_consume0 // h2.
have -> : mxsub (pick blk) (pick blk) P + \sum_(e <- rx) e.2 *: outer (fvec (colsub (pick blk) V) e.1) + rg%:M
          = S *m A *m S^T.
  rewrite /A /rowA sel_sub !mulmxDr !mulmxDl -/S; congr (_ + _ + _).
    rewrite mulmx_sumr mulmx_suml; apply: eq_bigr => e _.
    by rewrite -scalemxAr -scalemxAl sel_fvec /outer trmx_mul !mulmxA.
  by rewrite mul_mx_scalar -scalemxAl sel_id // scalemx1.
have -> : rowsub (pick blk) P *m x + rg *: rowsub (pick blk) x
          + \sum_(e <- rx) (e.2 * (dot x (fvec V e.1) - 1) - bias) *: fvec (colsub (pick blk) V) e.1
          = S *m (A *m x - b).
  rewrite /A rowA_mul /b /rowb scaler0 add0r -!sel_mul -/S mulmxBr !mulmxDr -!mulmxA -scalemxAr.
  rewrite -!addrA; congr (_ + _); rewrite [RHS]addrCA; congr (_ + _).
  rewrite !mulmx_sumr -sumrB; apply: eq_bigr => e _.
  rewrite -!scalemxAr -scalerBl sel_fvec (dotC x); congr (_ *: _); by rewrite mulrBr mulr1 opprD addrA addrAC.
case: ifP => // _; case: (llt_solve _ _) => [d|] //.
rewrite -sel_mul -/S; congr (Ok (_, _)).
rewrite /preds -map_comp; apply: eq_map => e /=.
by rewrite sel_fvec dotDl dotNl dot_mul_tr.
Qed.
End Sub.
