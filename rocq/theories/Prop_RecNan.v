(** * C71: scores that are not numbers *)
From Coq Require Import QArith.
From Verif Require Import Base Eval_Model Eval_Spec EvalPy_Model RecNan_Spec RecNan_Proofs Ex_Rec Ex_RecNan.
Local Open Scope nat_scope.

(** Single-user call: the items scored NaN that are offered and not forbidden
    take the first places; the other places hold the best of the finite scores. *)
Theorem C71_single {I} (eq_dec : forall a b : I, {a = b} + {a <> b}) argsort ids m row cutoff allowed forbidden : fsorts argsort ->
  make_mapper eq_dec ids = Ok m -> length row = length ids ->
  exists l1 l2 rest,
    frecommended_items eq_dec argsort m row cutoff allowed forbidden = Ok (l1 ++ map (fun p => (fst p, Num (snd p))) l2) /\
    Permutation (l1 ++ rest) (pool_nan eq_dec ids row allowed forbidden) /\
    length l1 = min (Z.to_nat (Z.max 1 cutoff)) (length (pool_nan eq_dec ids row allowed forbidden)) /\
    best (pool_finite eq_dec ids (map unnan row) allowed forbidden)
         (Z.to_nat (Z.max 1 cutoff) - length (pool_nan eq_dec ids row allowed forbidden)) l2.
Proof. exact (single_nan eq_dec argsort ids m row cutoff allowed forbidden). Qed.
Print Assumptions C71_single.
(** Without NaN: what C24 says. *)
Theorem C71_single_numbers {I} (eq_dec : forall a b : I, {a = b} + {a <> b}) argsort ids m row cutoff allowed forbidden : fsorts argsort ->
  make_mapper eq_dec ids = Ok m -> length row = length ids ->
  exists l, frecommended_items eq_dec argsort m (map Num row) cutoff allowed forbidden = Ok (map (fun p => (fst p, Num (snd p))) l) /\
    best (pool_finite eq_dec ids row allowed forbidden) (Z.to_nat (Z.max 1 cutoff)) l.
Proof. exact (single_numbers eq_dec argsort ids m row cutoff allowed forbidden). Qed.
Print Assumptions C71_single_numbers.
(** Batch call: undefined exactly when, for some user, a NaN is compared with
    two different numbers (seen and forbidden items count with minus
    infinity); otherwise nothing forbidden or masked is returned, and users
    without NaN get the best items. *)
Theorem C71_batch {I} (eq_dec : forall a b : I, {a = b} + {a <> b}) fl psort ids m rows cutoff allowed per_user forbidden :
  fl NegInf = NegInf -> fpartially_sorts psort ->
  make_mapper eq_dec ids = Ok m -> Forall (fun r => length r = length ids) rows ->
  (forall p, per_user = Some p -> length p = length rows) -> (forall f, forbidden = Some f -> length f = length rows) ->
  let shown u := compared eq_dec fl ids (nth u rows []) (batch_allowed allowed per_user u) (batch_forbidden forbidden u) in
  let result := frecommended_items_batch eq_dec fl psort m (length ids) rows cutoff allowed per_user forbidden in
  ((exists u, u < length rows /\ mixed (shown u)) /\ result = UB) \/
  ((forall u, u < length rows -> ~ mixed (shown u)) /\ exists l, result = Ok l /\ length l = length rows /\
   forall u, u < length rows ->
     length (nth u l []) <= cutoff /\
     (forall x s, In (x, s) (nth u l []) -> s <> Num NegInf /\ banned eq_dec (batch_forbidden forbidden u) x = false /\
        exists s0, In (x, s0) (foffered eq_dec ids (nth u rows []) (batch_allowed allowed per_user u)) /\ s = ffl fl s0) /\
     (~ In NaN (shown u) -> exists l0, nth u l [] = map (fun p => (fst p, Num (snd p))) l0 /\
        best (pool_batch eq_dec fl ids (map unnan (nth u rows [])) (batch_allowed allowed per_user u) (batch_forbidden forbidden u)) cutoff l0)).
Proof. exact (batch_nan eq_dec fl psort ids m rows cutoff allowed per_user forbidden). Qed.
Print Assumptions C71_batch.
(** Seen items stay out, NaN or not. *)
Theorem C71_single_seen {I} (eq_dec : forall a b : I, {a = b} + {a <> b}) argsort ids m row seen cutoff allowed forbidden l i x : fsorts argsort ->
  make_mapper eq_dec ids = Ok m -> length row = length ids -> Forall (fun j => j < length ids) seen ->
  frecommended_items eq_dec argsort m (fset_neginf row seen) cutoff allowed forbidden = Ok l ->
  In i seen -> nth_error ids i = Some x -> ~ In x (map fst l).
Proof. exact (single_seen eq_dec argsort ids m row seen cutoff allowed forbidden l i x). Qed.
Print Assumptions C71_single_seen.
Theorem C71_batch_seen {I} (eq_dec : forall a b : I, {a = b} + {a <> b}) fl psort ids m rows seen cutoff allowed per_user forbidden l u i x :
  fl NegInf = NegInf -> fpartially_sorts psort ->
  make_mapper eq_dec ids = Ok m -> Forall (fun r => length r = length ids) rows -> length seen = length rows ->
  Forall (Forall (fun j => j < length ids)) seen ->
  (forall p, per_user = Some p -> length p = length rows) -> (forall f, forbidden = Some f -> length f = length rows) ->
  frecommended_items_batch eq_dec fl psort m (length ids) (map (fun p => fset_neginf (fst p) (snd p)) (combine rows seen)) cutoff allowed per_user forbidden = Ok l ->
  u < length rows -> In i (nth u seen []) -> nth_error ids i = Some x -> ~ In x (map fst (nth u l [])).
Proof. exact (batch_seen eq_dec fl psort ids m rows seen cutoff allowed per_user forbidden l u i x). Qed.
Print Assumptions C71_batch_seen.
(** Evaluation: undefined exactly when some recommendable item scored NaN
    stands between two others of which the later one has the higher score;
    without NaN among the recommendable items the ranking is that of C03. *)
Theorem C71_evaluation rows n recs c data u uo cutoff : make_core rows n recs = Ok c -> n * u + n <= length data ->
  let sc i := nth (n * u + i) data NaN in
  let offered i := i < n /\ allowed recs uo i = true in
  let bad := exists a j b p q, offered a /\ offered j /\ offered b /\ a < j < b /\ sc j = NaN /\ sc a = Num p /\ sc b = Num q /\ p <> NegInf /\ scmp p q = Lt in
  (bad /\ franking c data u uo cutoff = UB) \/
  (~ bad /\ (exists r, franking c data u uo cutoff = Ok r) /\
   ((forall i, offered i -> sc i <> NaN) -> franking c data u uo cutoff = ranking c (map unnan data) u uo cutoff)).
Proof. exact (evaluation_nan rows n recs c data u uo cutoff). Qed.
Print Assumptions C71_evaluation.

(** A NaN is recommended, in front of the best number. *)
Theorem C71_numbers_only_refuted : exists argsort m row l, fsorts argsort /\ make_mapper Nat.eq_dec ex_ids = Ok m /\ length row = length ex_ids /\
  frecommended_items Nat.eq_dec argsort m row 2 None None = Ok l /\ l = [(20, NaN); (40, fz 5)].
Proof. exists ex_fargsort, ex_m, ex_frow. eexists. split; [exact ex_fargsort_ok|]. split; [reflexivity|]. split; [reflexivity|]. split; [vm_compute; reflexivity|reflexivity]. Qed.
Print Assumptions C71_numbers_only_refuted.
(** The batch call is undefined for the same scores. *)
Theorem C71_batch_defined_refuted : exists psort row, fpartially_sorts psort /\ length row = length ex_ids /\
  frecommended_items_batch Nat.eq_dec (fun s => s) psort ex_m 4 [row] 2 None None None = UB.
Proof. exists ex_fpsort, ex_frow. split; [exact ex_fpsort_ok|]. split; [reflexivity|]. vm_compute. reflexivity. Qed.
Print Assumptions C71_batch_defined_refuted.
(** Scores that are NaN except for a seen item: the call is defined, yet the
    list may come out empty, while the single-user call returns three items. *)
Theorem C71_agree_refuted : exists argsort psort row l1 l, fsorts argsort /\ fpartially_sorts psort /\
  frecommended_items Nat.eq_dec argsort ex_m row 4 None None = Ok l1 /\ length l1 = 3 /\
  frecommended_items_batch Nat.eq_dec (fun s => s) psort ex_m 4 [row] 4 None None None = Ok [l] /\ l = [].
Proof.
  exists ex_fargsort, ex_fpsort, [NaN; NaN; NaN; Num NegInf]. do 2 eexists. split; [exact ex_fargsort_ok|]. split; [exact ex_fpsort_ok|].
  split; [vm_compute; reflexivity|]. split; [reflexivity|]. split; [vm_compute; reflexivity|reflexivity].
Qed.
Print Assumptions C71_agree_refuted.
Theorem C71_evaluation_defined_refuted : exists rows n recs c data, make_core rows n recs = Ok c /\ length data = n /\
  franking c data 0 0 2 = UB.
Proof. exists [[1]], 3, []. eexists. exists [fz 1; NaN; fz 2]. split; [vm_compute; reflexivity|]. split; [reflexivity|]. vm_compute. reflexivity. Qed.
Print Assumptions C71_evaluation_defined_refuted.

Example C71_example :
  frecommended_items Nat.eq_dec ex_fargsort ex_m (fset_neginf ex_frow [1]) 2 None None = Ok [(40, fz 5); (10, fz 3)] /\
  frecommended_items Nat.eq_dec ex_fargsort ex_m ex_frow 3 (Some [10; 20; 40]) (Some [40]) = Ok [(20, NaN); (10, fz 3)] /\
  pool_nan Nat.eq_dec ex_ids ex_frow (Some [10; 20; 40]) (Some [40]) = [(20, NaN)] /\
  frecommended_items_batch Nat.eq_dec (fun s => s) ex_fpsort ex_m 4 [ex_frow; [NaN; NaN; NaN; NaN]] 2 None (Some [[10; 40]; [30; 20]]) (Some [[]; []])
    = Ok [[(40, fz 5); (10, fz 3)]; [(20, NaN); (30, NaN)]] /\
  frecommended_items_batch Nat.eq_dec (fun s => s) ex_fpsort ex_m 4 [ex_frow; [NaN; NaN; NaN; NaN]] 2 None (Some [[10; 20]; [30; 20]]) (Some [[]; [30]])
    = Ok [[(20, NaN); (10, fz 3)]; [(20, NaN)]] /\
  frecommended_items_batch Nat.eq_dec (fun s => s) ex_fpsort ex_m 4 [ex_frow] 2 None None (Some [[20]]) = Ok [[(40, fz 5); (10, fz 3)]].
Proof. repeat split; vm_compute; reflexivity. Qed.
Example C71_evaluation_example : exists c, make_core [[1]] 3 [] = Ok c /\
  franking c [fz 2; NaN; fz 1] 0 0 2 = Ok [0; 1] /\ franking c [NaN; fz 1; fz 2] 0 0 3 = Ok [0; 2; 1].
Proof. eexists. split; [vm_compute; reflexivity|]. split; vm_compute; reflexivity. Qed.
