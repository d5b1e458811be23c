(** What the ranking metrics mean, independently of the code.

    A user is described by the set of relevant items (ground truth), the set
    of items that may be recommended and a score for each item.  Lists are
    used for finite sets (no repetitions). *)
From Coq Require Export QArith.
From Verif Require Import Base.
From Verif Require Export Eval_Model.
Local Open Scope nat_scope.

(** Only [score] and its comparison are taken from the model; the comparison
    is the order [above], [level] of the numbers (C03_order). *)
Inductive above : score -> score -> Prop :=
| above_fin p q : (q < p)%Q -> above (Fin p) (Fin q)
| above_fin_neg p : above (Fin p) NegInf
| above_pos_fin q : above PosInf (Fin q)
| above_pos_neg : above PosInf NegInf.
Inductive level : score -> score -> Prop :=
| level_fin p q : (p == q)%Q -> level (Fin p) (Fin q)
| level_neg : level NegInf NegInf
| level_pos : level PosInf PosInf.
Definition better (sc : nat -> score) (i j : nat) : Prop :=
  scmp (sc i) (sc j) = Gt \/ (scmp (sc i) (sc j) = Eq /\ i < j).

(** [l] is the list of the [k] best items of [elig] (all of them if there are
    fewer), best first, ties broken by the smaller index. *)
Record is_top (sc : nat -> score) (elig : list nat) (k : nat) (l : list nat) : Prop := {
  top_sorted : StronglySorted (better sc) l;
  top_incl : incl l elig;
  top_length : length l = min k (length elig);
  top_best : forall i j, In i l -> In j elig -> ~ In j l -> better sc i j }.

Section Formulas.
Variable disc : nat -> Q.   (* discount of rank 0, 1, ... *)
Variable rwc : bool.        (* recall_with_cutoff *)

Definition relevant (gt : list nat) (i : nat) : bool := if in_dec Nat.eq_dec i gt then true else false.
Definition n_hits (l gt : list nat) : nat := length (filter (relevant gt) l).

Definition sum_upto (n : nat) (f : nat -> Q) : Q := fold_right Qplus 0%Q (map f (seq 0 n)).

Definition hit_of (l gt : list nat) : Q := if n_hits l gt =? 0 then 0%Q else 1%Q.
Definition precision_of (l gt : list nat) : Q :=
  if length l =? 0 then 0%Q else (inject_Z (Z.of_nat (n_hits l gt)) / inject_Z (Z.of_nat (length l)))%Q.
Definition recall_of (l gt : list nat) : Q :=
  if length l =? 0 then 0%Q else
  (inject_Z (Z.of_nat (n_hits l gt)) /
   inject_Z (Z.of_nat (if rwc then min (length gt) (length l) else length gt)))%Q.
Definition dcg_of (l gt : list nat) : Q :=
  sum_upto (length l) (fun i => if relevant gt (nth i l 0) then disc i else 0%Q).
Definition idcg_of (l gt : list nat) : Q := sum_upto (min (length gt) (length l)) disc.
Definition ndcg_of (l gt : list nat) : Q :=
  if length l =? 0 then 0%Q else (dcg_of l gt / idcg_of l gt)%Q.
Definition ap_of (l gt : list nat) : Q :=
  (sum_upto (length l) (fun i =>
     if relevant gt (nth i l 0%nat)
     then inject_Z (Z.of_nat (n_hits (firstn (S i) l) gt)) / inject_Z (Z.of_nat (S i))
     else 0) / inject_Z (Z.of_nat (length gt)))%Q.

End Formulas.

(** A user: relevant items, items open for recommendation, scores. *)
Record user := mkUser { u_gt : list nat; u_elig : list nat; u_score : nat -> score }.

(** Sum of a per-user quantity. *)
Definition total {X} (f : X -> Q) (l : list X) : Q := fold_right Qplus 0%Q (map f l).

Definition has_gt (u : user) : bool := negb (length (u_gt u) =? 0).
Definition valid_users (us : list user) : list user := filter has_gt us.

(** Number of users to whom item [i] is recommended. *)
Definition times_recommended (lists : list (list nat)) (i : nat) : nat :=
  length (filter (fun l => relevant l i) lists).

(** [tops] are the recommendation lists of the valid users, in order. *)
Definition tops_of (cutoff : nat) (us : list user) (tops : list (list nat)) : Prop :=
  Forall2 (fun u l => is_top (u_score u) (u_elig u) cutoff l) (valid_users us) tops.

Definition average (f : list nat -> list nat -> Q) (us : list user) (tops : list (list nat)) : Q :=
  (total (fun ul => f (snd ul) (u_gt (fst ul))) (combine (valid_users us) tops) /
   inject_Z (Z.of_nat (max 1 (length (valid_users us)))))%Q.

(** Gini coefficient of the counts c_0..c_{n-1}: mean absolute difference
    divided by twice the mean; 0 when nothing was counted. *)
Definition gini_of (cnt : list nat) : Q :=
  if fold_right Nat.add 0 cnt =? 0 then 0%Q else
  (inject_Z (fold_right Z.add 0%Z (map (fun a => fold_right Z.add 0%Z
      (map (fun b => Z.abs (Z.of_nat a - Z.of_nat b)) cnt)) cnt)) /
   (2 * inject_Z (Z.of_nat (length cnt)) *
    inject_Z (Z.of_nat (fold_right Nat.add 0%nat cnt))))%Q.

(** The shares of the recommended items in all recommendations, smallest
    first. *)
Definition shares_of (cnt : list nat) (ps : list Q) : Prop :=
  exists cs, StronglySorted le cs /\ Permutation cs (filter (fun c => negb (c =? 0)) cnt) /\
    ps = map (fun c => (inject_Z (Z.of_nat c) / inject_Z (Z.of_nat (fold_right Nat.add 0%nat cnt)))%Q) cs.

Section Report.
Variable disc : nat -> Q.
Variable rwc : bool.

(** What the report for the users [us] with recommendation lists [rm_tops]
    (one per valid user) must be. *)
Record report_means (n_items : nat) (us : list user) (rm_tops : list (list nat)) (r : report) : Prop := {
  rm_total : r_total_user r = length us;
  rm_valid : r_valid_user r = length (valid_users us);
  rm_items : r_n_items r = n_items;
  rm_hit : (r_hit r == average hit_of us rm_tops)%Q;
  rm_recall : (r_recall r == average (recall_of rwc) us rm_tops)%Q;
  rm_ndcg : (r_ndcg r == average (ndcg_of disc) us rm_tops)%Q;
  rm_map : (r_map r == average ap_of us rm_tops)%Q;
  rm_precision : (r_precision r == average precision_of us rm_tops)%Q;
  rm_appeared : r_appeared_item r =
                length (filter (fun i => negb (times_recommended rm_tops i =? 0)) (seq 0 n_items));
  rm_gini : (r_gini_index r == gini_of (map (times_recommended rm_tops) (seq 0 n_items)))%Q;
  rm_probs : shares_of (map (times_recommended rm_tops) (seq 0 n_items)) (r_probs r) }.
End Report.

(** ** The users of an evaluator *)
(** May item [i] be recommended to user [u]?  [recs] is the list of lists
    passed to the constructor: empty (everything), one list (for all users)
    or one list per user. *)
Definition allowed (recs : list (list nat)) (u i : nat) : bool :=
  match recs with
  | [] => true
  | [r] => relevant r i
  | _ => relevant (nth u recs []) i
  end.

(** User [u] of the ground truth [rows] (stored column indices per row) when
    the score of item [i] is [sc i]: relevant are the allowed ground truth
    items, open for recommendation the allowed items with a score other than
    minus infinity. *)
Definition user_of (n_items : nat) (rows recs : list (list nat)) (u : nat) (sc : nat -> score) : user :=
  mkUser (filter (fun i => relevant (nth u rows []) i && allowed recs u i) (seq 0 n_items))
         (filter (fun i => allowed recs u i && match sc i with NegInf => false | _ => true end)
                 (seq 0 n_items))
         sc.

(** The users [offset .. offset + length scores - 1], one row of scores each. *)
Definition users_of (n_items : nat) (rows recs : list (list nat)) (offset : nat)
           (scores : list (list score)) : list user :=
  map (fun k => user_of n_items rows recs (offset + k) (fun i => nth i (nth k scores []) NegInf))
      (seq 0 (length scores)).

(** ** Inputs *)
(** CSR rows with sorted indices inside the matrix (evaluator.py 114-115). *)
Definition rows_ok (n_items : nat) (rows : list (list nat)) : Prop :=
  Forall (fun r => StronglySorted le r /\ Forall (fun i => i < n_items) r) rows.

(** A valid specification of recommendable items. *)
Definition recs_ok (n_rows n_items : nat) (recs : list (list nat)) : Prop :=
  (length recs = 0 \/ length recs = 1 \/ length recs = n_rows) /\
  Forall (fun r => NoDup r /\ Forall (fun i => i < n_items) r) recs.

(** ** Metric objects *)
(** The same numbers in every field. *)
Record meq (a b : metrics) : Prop := {
  meq_valid : m_valid_user a = m_valid_user b;
  meq_total : m_total_user a = m_total_user b;
  meq_hit : (m_hit a == m_hit b)%Q;
  meq_recall : (m_recall a == m_recall b)%Q;
  meq_ndcg : (m_ndcg a == m_ndcg b)%Q;
  meq_precision : (m_precision a == m_precision b)%Q;
  meq_map : (m_map a == m_map b)%Q;
  meq_n_item : m_n_item a = m_n_item b;
  meq_cnt : m_item_cnt a = m_item_cnt b }.
(** One counter per item. *)
Definition wf_metrics (n : nat) (m : metrics) : Prop := m_n_item m = n /\ length (m_item_cnt m) = n.

(** ** Vocabulary of the properties *)
(** Every relevant item that fits comes first. *)
Definition perfect (l gt : list nat) : Prop :=
  forall i, i < min (length gt) (length l) -> In (nth i l 0) gt.

Definition in01 (q : Q) : Prop := (0 <= q <= 1)%Q.

Definition nat_sum (l : list nat) : nat := fold_right Nat.add 0 l.
