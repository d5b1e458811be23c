(** The worker pools of iALS: rows are handled once each, sums do not depend on
    who adds what. *)
From Verif Require Import Base Sched_Model Sched_Proofs.
From mathcomp Require Import all_ssreflect all_algebra.
Import GRing.Theory.
From Verif Require Import Ials_Model Ials_Spec IalsLin_Proofs.
Set Implicit Arguments.
Unset Strict Implicit.
Unset Printing Implicit Defensive.
Local Open Scope ring_scope.

Lemma seq_iota s n : List.seq s n = iota s n.
Proof. by elim: n s => [|n IH] s //=; rewrite IH. Qed.

Lemma In_iota i n : List.In i (List.seq 0 n) <-> (i < n)%N.
Proof.
rewrite in_seq; split=> [[_ /ltP] //|/ltP h]; split=> //; exact: Nat.le_0_l.
Qed.

Lemma perm_sum (V : zmodType) (f : nat -> V) l l' : Permutation l l' ->
  \sum_(i <- l) f i = \sum_(i <- l') f i.
Proof.
elim=> [|x a b _ IH|x y a|a b c _ IH1 _ IH2] //.
- by rewrite !big_cons IH.
- by rewrite !big_cons addrCA.
- by rewrite IH1.
Qed.

Lemma sum_seq (V : zmodType) (f : nat -> V) n : \sum_(i <- List.seq 0 n) f i = \sum_(i < n) f i.
Proof. by rewrite seq_iota -(big_mkord xpredT) /index_iota subn0. Qed.

(** ** Row loops *)
Section Table.
Variables (R : Type) (m : nat) (f : 'I_m -> R -> outcome R).

Lemma row_fold_stuck l res : is_ok res = false ->
  fold_left (fun s i => row_work f i s) l res = res.
Proof. by case: res => //= *; elim: l => [|a l IH] //=. Qed.

Lemma row_fold l t : NoDup l -> (forall i, List.In i l -> (i < m)%N) ->
  match fold_left (fun s i => row_work f i s) l (Ok t) with
  | Ok t' => forall i : 'I_m, (List.In (val i) l -> f i (t i) = Ok (t' i)) /\
                              (~ List.In (val i) l -> t' i = t i)
  | Fail e => exists i : 'I_m, List.In (val i) l /\ f i (t i) = Fail e
  | UB => exists i : 'I_m, List.In (val i) l /\ f i (t i) = UB
  | Pending => exists i : 'I_m, List.In (val i) l /\ f i (t i) = Pending
  end.
Proof.
elim: l t => [|a l IH] t; first by move=> _ _ i /=; split.
rewrite NoDup_cons_iff => -[hal hl] hlt.
have ham : (a < m)%N by apply: hlt; left.
have -> : fold_left (fun s i => row_work f i s) (a :: l) (Ok t) =
          fold_left (fun s i => row_work f i s) l (row_work f a (Ok t)) by [].
pose a' : 'I_m := Ordinal ham.
have Ea : val a' = a by [].
have -> : row_work f a (Ok t) = omap (fun r => [ffun x => if x == a' then r else t x]) (f a' (t a')).
  by rewrite /row_work /= (insubT (fun x => x < m)%N ham).
case E: (f a' (t a')) => [r|e||] /=; last 3 first.
- by rewrite row_fold_stuck //; exists a'; split; first left.
- by rewrite row_fold_stuck //; exists a'; split; first left.
- by rewrite row_fold_stuck //; exists a'; split; first left.
set t1 := [ffun _ => _].
have t1o (i : 'I_m) : List.In (val i) l -> t1 i = t i.
  move=> h; rewrite ffunE; case: eqP => // hia; case: hal; by rewrite -Ea -hia.
have hl' i : List.In i l -> (i < m)%N by move=> h; apply: hlt; right.
have := IH t1 hl hl'.
case: (fold_left _ _ _) => [t'|e||].
- move=> h i; have [h1 h2] := h i; split.
  + move=> [hi|hi]; last by rewrite -(t1o _ hi) h1.
    have hia : i = a' by apply: val_inj.
    by rewrite h2 ?hia ?ffunE ?eqxx ?E // Ea.
  + move=> hi; rewrite h2; last by move=> h'; apply: hi; right.
    rewrite ffunE; case: eqP => // hia; case: hi; left; by rewrite hia.
- by move=> [i [hi h]]; exists i; split; [right|rewrite -(t1o _ hi)].
- by move=> [i [hi h]]; exists i; split; [right|rewrite -(t1o _ hi)].
- by move=> [i [hi h]]; exists i; split; [right|rewrite -(t1o _ hi)].
Qed.

(** What a run over the rows can result in, for every schedule. *)
Lemma step_table_result nt sched t : (0 < nt)%N ->
  let p := run_pool m 1 (fun _ (a : unit) => a) (row_work f) sched (init_pool nt tt (Ok t)) in
  match step_table f nt sched t with
  | Ok t' => completed p /\ forall i, f i (t i) = Ok (t' i)
  | Fail e => completed p /\ exists i, f i (t i) = Fail e
  | UB => completed p /\ exists i, f i (t i) = UB
  | Pending => ~~ completed p \/ exists i, f i (t i) = Pending
  end.
Proof.
move=> hnt p; rewrite /step_table /await -/p.
case: ifP => [hc|]; last by left.
have hb : le 1 1 by apply/leP.
have hk : le 1 nt by apply/leP.
have [logs [glog [_ [_ [hp [_ hs]]]]]] := pool_exactly_once _ _ _ _ _ _ _ _ hb hk hc.
rewrite -/p in hs; rewrite hs /fold_sh.
have hnd : NoDup glog by apply: (Permutation_NoDup (Permutation_sym hp)); apply: seq_NoDup.
have hlt i : List.In i glog -> (i < m)%N by move=> h; apply/In_iota; apply: (Permutation_in _ hp).
have hin (i : 'I_m) : List.In (val i) glog.
  by apply: (Permutation_in _ (Permutation_sym hp)); apply/In_iota; apply: ltn_ord.
have := row_fold t hnd hlt.
case: (fold_left _ _ _) => [t'|e||].
- by move=> h; split=> // i; apply: (h i).1.
- by move=> [i [_ h]]; split=> //; exists i.
- by move=> [i [_ h]]; split=> //; exists i.
- by move=> [i [_ h]]; right; exists i.
Qed.

Lemma step_table_ok nt sched t t' : (0 < nt)%N -> step_table f nt sched t = Ok t' ->
  forall i, f i (t i) = Ok (t' i).
Proof. by move=> h E; have := step_table_result sched t h; rewrite E => -[]. Qed.

Lemma step_table_total nt sched (t : {ffun 'I_m -> R}) : (0 < nt)%N -> (forall i, exists r, f i (t i) = Ok r) ->
  step_table f nt sched t = Pending \/ exists t', step_table f nt sched t = Ok t'.
Proof.
move=> h ht; have := step_table_result sched t h.
case: (step_table _ _ _ _) => [t'|e||] /=; [by right; exists t'|..|by left].
- by move=> [_ [i]]; case: (ht i) => r ->.
- by move=> [_ [i]]; case: (ht i) => r ->.
Qed.

(** Enough turns for every worker and the loop ends. *)
Lemma count_occ_mem w l : count_occ Nat.eq_dec l w = count_mem w l.
Proof.
elim: l => [|a l IH] //=; case: Nat.eq_dec => [->|h]; rewrite IH ?eqxx //.
by case: eqP => // h'; case: h.
Qed.
Lemma fair_sched n nt sched : fair n nt sched ->
  forall t, lt t nt -> le (3 * n + 1) (count_occ Nat.eq_dec sched t).
Proof. by move=> h w /ltP hw; rewrite count_occ_mem; apply/leP; apply: h. Qed.

Lemma step_table_fair nt sched (t : {ffun 'I_m -> R}) : (0 < nt)%N -> fair m nt sched ->
  (forall i, exists r, f i (t i) = Ok r) -> exists t', step_table f nt sched t = Ok t'.
Proof.
move=> h hf ht; have := step_table_result sched t h.
case: (step_table _ _ _ _) => [t'|e||] /=; [by exists t'|..].
- by move=> [_ [i]]; case: (ht i) => r ->.
- by move=> [_ [i]]; case: (ht i) => r ->.
- case=> [|[i]]; last by case: (ht i) => r ->.
  have hb : le 1 1 by apply/leP.
  by rewrite (fair_completes _ _ _ _ hb _ _ _ _ (fair_sched hf)).
Qed.

Lemma step_table_all_fail nt sched (t : {ffun 'I_m -> R}) e : (0 < nt)%N -> (0 < m)%N ->
  fair m nt sched -> (forall i, f i (t i) = Fail e) -> step_table f nt sched t = Fail e.
Proof.
move=> h hm hf ht; have := step_table_result sched t h.
case: (step_table _ _ _ _) => [t'|e'||] /=.
- by move=> [_ /(_ (Ordinal hm))]; rewrite ht.
- by move=> [_ [i]]; rewrite ht => -[->].
- by move=> [_ [i]]; rewrite ht.
- case=> [|[i]]; last by rewrite ht.
  have hb : le 1 1 by apply/leP.
  by rewrite (fair_completes _ _ _ _ hb _ _ _ _ (fair_sched hf)).
Qed.
End Table.

(** ** Sums collected by workers *)
Section Sum.
Variable V : zmodType.
Variables (n block nt : nat) (work : nat -> outcome V -> outcome V) (g : nat -> V).
Hypothesis hblock : (0 < block)%N.
Hypothesis hwork : forall i a, (i < n)%N -> work i (Ok a) = Ok (a + g i).

Lemma acc_fold l a : (forall i, List.In i l -> (i < n)%N) ->
  fold_left (fun s i => work i s) l (Ok a) = Ok (a + \sum_(i <- l) g i).
Proof.
elim: l a => [|i l IH] a hl /=; first by rewrite big_nil addr0.
rewrite hwork; last by apply: hl; left.
by rewrite IH ?big_cons ?addrA // => j hj; apply: hl; right.
Qed.

Lemma sum_workers ws logs a : List.map w_acc ws = List.map (fun l => Ok (\sum_(i <- l) g i)) logs ->
  ofold (fun P (w : worker (outcome V)) => omap (fun Q => P + Q) (w_acc w)) ws a =
  Ok (a + \sum_(i <- concat logs) g i).
Proof.
elim: logs ws a => [|l logs IH] [|w ws] a //=; first by rewrite big_nil addr0.
by case=> -> h /=; rewrite IH // big_cat /= addrA.
Qed.

Lemma pool_sum sched a : (0 < nt)%N ->
  let p := run_pool n block work (fun _ (s : unit) => s) sched (init_pool nt (Ok 0) tt) in
  completed p ->
  ofold (fun P (w : worker (outcome V)) => omap (fun Q => P + Q) (w_acc w)) (p_workers p) a =
  Ok (a + \sum_(i < n) g i).
Proof.
move=> hnt p hc.
have hb : le 1 block by apply/leP.
have hk : le 1 nt by apply/leP.
have [logs [glog [_ [hp [_ [ha _]]]]]] := pool_exactly_once _ _ _ _ _ _ _ _ hb hk hc.
rewrite -/p in ha; rewrite (sum_workers (logs := logs)); first by rewrite (perm_sum g hp) sum_seq.
rewrite ha; apply: map_ext_in => l hl; rewrite /fold_acc acc_fold ?add0r // => i hi.
apply/In_iota; apply: (Permutation_in _ hp); apply/in_concat; by exists l.
Qed.

Lemma pool_sum_fair sched : fair n nt sched ->
  completed (run_pool n block work (fun _ (s : unit) => s) sched (init_pool nt (Ok 0) tt)).
Proof.
move=> hf; have hb : le 1 block by apply/leP.
by rewrite (fair_completes _ _ _ _ hb _ _ _ _ (fair_sched hf)).
Qed.
End Sum.
