(** Gram matrix and blocked scores. *)
From Verif Require Import Base Sched_Model Sched_Proofs.
From mathcomp Require Import all_ssreflect all_algebra.
Import GRing.Theory.
From Verif Require Import Ials_Model Ials_Spec IalsLin_Proofs IalsPool_Proofs IalsRow_Proofs.
Set Implicit Arguments.
Unset Strict Implicit.
Unset Printing Implicit Defensive.
Local Open Scope ring_scope.

Lemma between_val n s e : (e <= n)%N -> [seq val i | i <- between n s e] = iota s (e - s).
Proof.
move=> he; apply: (irr_sorted_eq ltn_trans ltnn).
- rewrite /between; apply: (subseq_sorted ltn_trans (s2 := iota 0 n)); last exact: iota_ltn_sorted.
  by rewrite -val_enum_ord map_subseq // filter_subseq.
- exact: iota_ltn_sorted.
move=> j; rewrite mem_iota; apply/mapP/idP => [[i]|].
  rewrite mem_filter => /andP [/andP [h1 h2] _] ->.
  by rewrite h1 subnKC // (leq_trans h1 (ltnW h2)).
move=> /andP [h1 h2].
have hse : (s < e)%N by rewrite ltnNge; apply/negP => h; move: h2; rewrite (eqP h) addn0 ltnNge h1.
rewrite subnKC ?(ltnW hse) // in h2.
exists (Ordinal (leq_trans h2 he)) => //.
by rewrite mem_filter h1 h2 mem_enum.
Qed.

Lemma between_size n s e : (e <= n)%N -> size (between n s e) = (e - s)%N.
Proof. by move=> h; rewrite -(size_map val) between_val // size_iota. Qed.

Lemma pick_between n s e (t : 'I_(size (between n s e))) : (e <= n)%N ->
  val (pick (between n s e) t) = (s + t)%N.
Proof.
move=> he; have ht : (t < e - s)%N by apply: leq_trans (ltn_ord t) _; rewrite between_size.
have n0 : 'I_n by exact: (pick (between n s e) t).
rewrite /pick (tnth_nth n0) -(nth_map n0 0%N) ?ltn_ord //.
by rewrite between_val // nth_iota.
Qed.

Section Gram.
Variable F : realFieldType.
Variable pow : F -> F -> F.
Variable cfg : model_config F.

Lemma block_gram n K (V : 'M[F]_(n, K)) s e a b :
  ((middle_rows V s e)^T *m middle_rows V s e) a b = \sum_(t < n | (s <= t < e)%N) V t a * V t b.
Proof.
rewrite mxE (eq_bigr (fun i => V (pick (between n s e) i) a * V (pick (between n s e) i) b)); last first.
  by move=> i _; rewrite !mxE.
rewrite -(big_tnth _ _ (between n s e) xpredT (fun t => V t a * V t b)) big_filter big_enum_cond /=.
by [].
Qed.

Definition gram_part n K (V : 'M[F]_(n, K)) (i : nat) : 'M[F]_K :=
  if (i %% 16 == 0)%N then (middle_rows V i (minn (i + 16) n))^T *m middle_rows V i (minn (i + 16) n)
  else 0.

Lemma block_unique q t i : (0 < q)%N -> (i %% q == 0)%N && (i <= t < i + q)%N = (i == t %/ q * q)%N.
Proof.
move=> hq; apply/idP/eqP => [/andP [/eqP h0 /andP [h1 h2]]|->].
  have hi : i = (i %/ q * q)%N by rewrite {1}(divn_eq i q) h0 addn0.
  rewrite {1}hi; congr (_ * _)%N; apply/eqP; rewrite eqn_leq.
  rewrite leq_div2r //= -ltnS ltn_divLR // mulSn addnC -hi //.
by rewrite modnMl eqxx leq_trunc_div /= addnC -mulSn ltn_ceil.
Qed.

Lemma gram_blocks n K (V : 'M[F]_(n, K)) : \sum_(i < n) gram_part V i = V^T *m V.
Proof.
apply/matrixP => a b; rewrite summxE mxE.
rewrite (eq_bigr (fun i : 'I_n => \sum_(t < n | (i %% 16 == 0)%N && (i <= t < i + 16)%N) V t a * V t b));
  last first.
  move=> i _; rewrite /gram_part; case: ifP => h /=; last by rewrite mxE big_pred0.
  rewrite block_gram; apply: eq_bigl => t; rewrite leq_min ltn_ord andbT.
  by [].
rewrite (exchange_big_dep xpredT) //=; apply: eq_bigr => t _.
have hlt : (t %/ 16 * 16 < n)%N by apply: leq_ltn_trans (ltn_ord t); apply: leq_trunc_div.
rewrite (big_pred1 (Ordinal hlt)) ?mxE // => i.
by rewrite block_unique.
Qed.

Lemma gram_workE n K (V : 'M[F]_(n, K)) i A : (i < n)%N ->
  gram_work V i (Ok A) = Ok (A + gram_part V i).
Proof.
move=> hi; rewrite /gram_work /gram_part; case: ifP => _; last by rewrite addr0.
by rewrite /= geq_minr.
Qed.

Lemma prepare_pE n K nt sched (V : 'M[F]_(n, K)) : (0 < nt)%N ->
  prepare_p cfg nt sched V =
  if completed (run_pool n 16 (gram_work V) (fun _ s => s) sched (init_pool nt (Ok 0) tt))
  then Ok (gram_of cfg V) else Pending.
Proof.
move=> hnt; rewrite /prepare_p gtn_eqF // /await; case: ifP => // hc.
rewrite (pool_sum (g := gram_part V) (block := 16)) //; last by move=> i A; apply: gram_workE.
by rewrite /= add0r gram_blocks.
Qed.

Lemma prepare_p_ok n K nt sched (V : 'M[F]_(n, K)) P :
  prepare_p cfg nt sched V = Ok P -> (0 < nt)%N /\ P = gram_of cfg V.
Proof.
case: nt => [|nt] //; rewrite prepare_pE //; by case: ifP => // _ [<-].
Qed.

Lemma prepare_p_total n K nt sched (V : 'M[F]_(n, K)) : (0 < nt)%N ->
  prepare_p cfg nt sched V = Pending \/ prepare_p cfg nt sched V = Ok (gram_of cfg V).
Proof. by move=> h; rewrite prepare_pE //; case: ifP; [right|left]. Qed.

Lemma prepare_p_fair n K nt sched (V : 'M[F]_(n, K)) : (0 < nt)%N -> fair n nt sched ->
  prepare_p cfg nt sched V = Ok (gram_of cfg V).
Proof.
move=> h hf; rewrite prepare_pE // pool_sum_fair //.
Qed.

(** ** Scores *)
Section Scores.
Variables (m n K : nat) (U : 'M[F]_(m, K)) (V : 'M[F]_(n, K)) (begin size chunk : nat).
Hypothesis hchunk : (0 < chunk)%N.
Hypothesis hend : (begin + size <= m)%N.

Definition score_row (r : 'I_size) (c : 'I_n) : F :=
  if insub (begin + r)%N is Some u then \sum_k U u k * V c k else 0.

Definition written (l : seq nat) (r : nat) : bool := has (fun i => (i %% chunk == 0)%N && (i <= r < i + chunk)%N) l.

Lemma score_workE i res : (i < size)%N ->
  exists res', score_work U V begin chunk i (Ok res) = Ok res' /\
    forall r c, res' r c = if (i %% chunk == 0)%N && (i <= r < i + chunk)%N then score_row r c else res r c.
Proof.
move=> hi; rewrite /score_work; case: ifP => hm /=; last by exists res; split=> // r c.
set bs := (minn (i + chunk) size - i)%N.
have hbs : (i + bs = minn (i + chunk) size)%N.
  by rewrite /bs subnKC // leq_min (ltnW hi) andbT leq_addr.
have h1 : (i + bs <= size)%N by rewrite hbs geq_minr.
have h2 : (i + begin + bs <= m)%N by rewrite addnAC addnC (leq_trans _ hend) // leq_add2l.
rewrite h1 h2 /=; eexists; split; first by [].
move=> r c; rewrite mxE.
have -> : (r < i + bs)%N = (r < i + chunk)%N by rewrite hbs leq_min ltn_ord andbT.
case: ifP => // /andP [hir hrc].
have hsz : seq.size (between m (i + begin) (i + begin + bs)) = bs by rewrite between_size // addKn.
have ht : (r - i < seq.size (between m (i + begin) (i + begin + bs)))%N.
  by rewrite hsz ltn_subLR // hbs leq_min hrc ltn_ord.
rewrite (insubT (fun x => x < _)%N ht) !mxE /score_row.
have hr : (begin + r < m)%N by apply: leq_trans hend; rewrite ltn_add2l.
rewrite (insubT (fun x => x < m)%N hr); apply: eq_bigr => k _; rewrite !mxE.
congr (U _ k * _); apply: val_inj; by rewrite pick_between //= addnAC subnKC // addnC.
Qed.

Lemma score_fold l res : (forall i, List.In i l -> (i < size)%N) ->
  exists res', fold_left (fun s i => score_work U V begin chunk i s) l (Ok res) = Ok res' /\
    forall r c, res' r c = if written l r then score_row r c else res r c.
Proof.
elim: l res => [|i l IH] res hl; first by exists res.
have [|res1 [E1 H1]] := score_workE res (_ : i < size)%N; first by apply: hl; left.
have [|res2 [E2 H2]] := IH res1; first by move=> j hj; apply: hl; right.
exists res2; split; first by rewrite /= E1.
move=> r c; rewrite H2 H1 /=; by case: (written l r); rewrite ?orbT ?orbF.
Qed.

Lemma written_all l (r : 'I_size) : (forall i, (i < size)%N -> List.In i l) -> written l r.
Proof.
move=> hl; have hin := hl (r %/ chunk * chunk)%N.
have hlt : (r %/ chunk * chunk < size)%N by apply: leq_ltn_trans (ltn_ord r); apply: leq_trunc_div.
move/(_ hlt): hin => hin.
apply/hasP; exists (r %/ chunk * chunk)%N; last by rewrite block_unique.
by elim: (l) hin => [|a l' IH] //= [->|/IH h]; rewrite inE ?eqxx // h orbT.
Qed.
End Scores.

Lemma chunk_pos nt sz : (0 < chunk_size_of nt sz)%N.
Proof.
rewrite /chunk_size_of; case: ifP => // h; case: ifP => // _.
by move: h; case: (_ %/ _)%N.
Qed.

Lemma user_scoresE m n K nt sched (U : 'M[F]_(m, K)) (V : 'M[F]_(n, K)) b e junk :
  (0 < nt)%N -> (b <= e)%N -> (e <= m)%N ->
  user_scores nt sched U V (begin := b) (end_ := e) junk =
  if completed (run_pool (e - b) (chunk_size_of nt (e - b)) (fun _ a => a)
                  (score_work (size := e - b) U V b (chunk_size_of nt (e - b))) sched (init_pool nt tt (Ok junk)))
  then Ok (\matrix_(r, c) score_row U V b r c) else Pending.
Proof.
move=> hnt hbe hem; rewrite /user_scores /check_arg hnt hbe hem /await.
set chunk := chunk_size_of _ _; case: ifP => hc //.
have hb : le 1 chunk by apply/leP; apply: chunk_pos.
have hk : le 1 nt by apply/leP.
have [logs [glog [_ [_ [hp [_ hs]]]]]] := pool_exactly_once _ _ _ _ _ _ _ _ hb hk hc.
rewrite hs /fold_sh.
have hend : (b + (e - b) <= m)%N by rewrite subnKC.
have hlt i : List.In i glog -> (i < e - b)%N by move=> h; apply/In_iota; apply: (Permutation_in _ hp).
have [res [E H]] := score_fold U V chunk hend junk hlt.
rewrite E; congr Ok; apply/matrixP => r c; rewrite H mxE written_all // => [|i hi].
  exact: chunk_pos.
by apply: (Permutation_in _ (Permutation_sym hp)); apply/In_iota.
Qed.

Lemma user_scores_fair m n K nt sched (U : 'M[F]_(m, K)) (V : 'M[F]_(n, K)) b e junk :
  (0 < nt)%N -> (b <= e)%N -> (e <= m)%N -> fair (e - b) nt sched ->
  user_scores nt sched U V (begin := b) (end_ := e) junk = Ok (\matrix_(r, c) score_row U V b r c).
Proof.
move=> hnt hbe hem hf; rewrite user_scoresE //.
have hb : le 1 (chunk_size_of nt (e - b)) by apply/leP; apply: chunk_pos.
by rewrite (fair_completes _ _ _ _ hb _ _ _ _ (fair_sched hf)).
Qed.
End Gram.
