(** Properties C23-C26 and C51: ID mapping and recommendation lists. *)
From Coq Require Import QArith.
From Verif Require Import Base Sched_Model Sort_Proofs Rec_Spec Rec_Proofs RecApi_Proofs Ex_Rec.
Local Open Scope nat_scope.

(** * C23: the mapper is a bijection or refuses *)
Theorem C23_accepts_distinct {I} (eq_dec : forall a b : I, {a = b} + {a <> b}) ids :
  (exists m, make_mapper eq_dec ids = Ok m) <-> NoDup ids.
Proof. exact (make_mapper_iff eq_dec ids). Qed.
Print Assumptions C23_accepts_distinct.
Theorem C23_rejects_duplicates {I} (eq_dec : forall a b : I, {a = b} + {a <> b}) ids :
  ~ NoDup ids -> make_mapper eq_dec ids = Fail ValueError.
Proof. exact (make_mapper_fails eq_dec ids). Qed.
Print Assumptions C23_rejects_duplicates.
Theorem C23_bijection {I} (eq_dec : forall a b : I, {a = b} + {a <> b}) ids m : make_mapper eq_dec ids = Ok m ->
  (forall x i, dict_find eq_dec (mp_index m) x = Some i <-> nth_error (mp_ids m) i = Some x) /\
  (forall x, dict_find eq_dec (mp_index m) x = None <-> ~ In x ids).
Proof. exact (mapper_bijection eq_dec ids m). Qed.
Print Assumptions C23_bijection.
(** The same for the user ids of IDMapper. *)
Theorem C23_users_accepts {U I} (eq_u : forall a b : U, {a = b} + {a <> b}) (eq_i : forall a b : I, {a = b} + {a <> b}) us is :
  (exists m, make_id_mapper eq_u eq_i us is = Ok m) <-> NoDup us /\ NoDup is.
Proof. exact (id_mapper_iff eq_u eq_i us is). Qed.
Print Assumptions C23_users_accepts.
Theorem C23_users_rejects {U I} (eq_u : forall a b : U, {a = b} + {a <> b}) (eq_i : forall a b : I, {a = b} + {a <> b}) us is :
  ~ (NoDup us /\ NoDup is) -> make_id_mapper eq_u eq_i us is = Fail ValueError.
Proof. exact (id_mapper_fails eq_u eq_i us is). Qed.
Print Assumptions C23_users_rejects.
Example C23_example : make_mapper Nat.eq_dec ex_ids = Ok ex_m /\ dict_find Nat.eq_dec (mp_index ex_m) 30 = Some 2 /\
  dict_find Nat.eq_dec (mp_index ex_m) 50 = None /\ make_mapper Nat.eq_dec [10; 20; 10] = Fail ValueError.
Proof. repeat split. Qed.

(** * C24: recommendations respect allowed, forbidden, seen and cutoff *)
Theorem C24_single {I} (eq_dec : forall a b : I, {a = b} + {a <> b}) argsort ids m row cutoff allowed forbidden :
  sorts argsort -> make_mapper eq_dec ids = Ok m -> length row = length ids -> (1 <= cutoff)%Z ->
  exists l, recommended_items eq_dec argsort m row cutoff allowed forbidden = Ok l /\
    respects (fun s => s) finite ids row allowed forbidden (Z.to_nat cutoff) l.
Proof. exact (single_respects eq_dec argsort ids m row cutoff allowed forbidden). Qed.
Print Assumptions C24_single.
Theorem C24_batch {I} (eq_dec : forall a b : I, {a = b} + {a <> b}) fl psort ids m scores cutoff allowed per_user forbidden n_threads launched sched l :
  partially_sorts psort -> fl NegInf = NegInf -> make_mapper eq_dec ids = Ok m ->
  Forall (fun r => length r = length ids) (d_rows scores) -> d_cols scores = length ids -> d_rows scores = [] \/ 1 <= launched ->
  snd (recommended_items_batch eq_dec fl psort m scores cutoff allowed per_user forbidden n_threads launched sched) = Ok l ->
  length l = length (d_rows scores) /\
  forall u, u < length l ->
    respects fl (fun s => s <> NegInf) ids (nth u (d_rows scores) []) (batch_allowed allowed per_user u) (batch_forbidden forbidden u) cutoff (nth u l []).
Proof. exact (batch_respects eq_dec fl psort ids m scores cutoff allowed per_user forbidden n_threads launched sched l). Qed.
Print Assumptions C24_batch.
(** Well-formed batch calls return, under every schedule that lets each worker run long enough. *)
Theorem C24_batch_returns {I} (eq_dec : forall a b : I, {a = b} + {a <> b}) fl psort ids m scores cutoff allowed per_user forbidden n_threads launched sched :
  partially_sorts psort -> make_mapper eq_dec ids = Ok m ->
  Forall (fun r => length r = length ids) (d_rows scores) -> d_cols scores = length ids -> d_rows scores = [] \/ 1 <= launched -> 1 <= n_threads ->
  (forall p, per_user = Some p -> length p = length (d_rows scores)) -> (forall f, forbidden = Some f -> length f = length (d_rows scores)) ->
  (forall t, t < launched -> 3 * length (d_rows scores) + 1 <= count_occ Nat.eq_dec sched t) ->
  exists l, snd (recommended_items_batch eq_dec fl psort m scores cutoff allowed per_user forbidden n_threads launched sched) = Ok l.
Proof. exact (batch_answers eq_dec fl psort ids m scores cutoff allowed per_user forbidden n_threads launched sched). Qed.
Print Assumptions C24_batch_returns.
(** New users never get an item of their profile (with a rating other than 0);
    the recommender is asked about exactly that profile. *)
Theorem C24_new_user {I} (eq_dec : forall a b : I, {a = b} + {a <> b}) argsort ids m rc p cutoff allowed forbidden l :
  sorts argsort -> make_mapper eq_dec ids = Ok m ->
  (forall x, csr_n_rows x = 1 -> exists r, rc_cold rc x = mkDense (length ids) [r] /\ length r = length ids) -> (1 <= cutoff)%Z ->
  recommend_new_user eq_dec argsort m rc p cutoff allowed forbidden = Ok l ->
  (Z.of_nat (length l) <= cutoff)%Z /\ (forall x s, In (x, s) l -> ~ mentions p x /\ exists X r, rc_cold rc X = mkDense (length ids) [r] /\
     (forall i y, nth_error ids i = Some y -> (csr_entry X 0 i == rating eq_dec p y)%Q) /\ eligible ids r allowed forbidden x s /\ finite s).
Proof. exact (new_user_respects eq_dec argsort ids m rc p cutoff allowed forbidden l). Qed.
Print Assumptions C24_new_user.
Theorem C24_new_user_batch {I} (eq_dec : forall a b : I, {a = b} + {a <> b}) fl psort ids m rc ps cutoff allowed per_user forbidden n_threads launched sched l :
  partially_sorts psort -> fl NegInf = NegInf -> make_mapper eq_dec ids = Ok m ->
  (forall x, d_cols (rc_cold rc x) = length ids /\ length (d_rows (rc_cold rc x)) = csr_n_rows x /\ Forall (fun r => length r = length ids) (d_rows (rc_cold rc x))) ->
  ps = [] \/ 1 <= launched ->
  recommend_new_users eq_dec fl psort m rc ps cutoff allowed per_user forbidden n_threads launched sched = Ok l ->
  length l = length ps /\ forall u p, nth_error ps u = Some p ->
    length (nth u l []) <= cutoff /\
    forall x t, In (x, t) (nth u l []) -> ~ mentions p x /\ exists s,
      eligible ids (nth u (d_rows (rc_cold rc (profiles_to_matrix eq_dec m ps))) []) (batch_allowed allowed per_user u) (batch_forbidden forbidden u) x s /\ t = fl s /\ t <> NegInf.
Proof. exact (new_users_respect eq_dec fl psort ids m rc ps cutoff allowed per_user forbidden n_threads launched sched l). Qed.
Print Assumptions C24_new_user_batch.
(** Known users never get an item of their training row. *)
Theorem C24_known_user {U I} (eq_u : forall a b : U, {a = b} + {a <> b}) (eq_i : forall a b : I, {a = b} + {a <> b})
  argsort us is m rc k u cutoff allowed forbidden l : sorts argsort -> make_id_mapper eq_u eq_i us is = Ok m ->
  scores_shape rc (length is) -> (1 <= cutoff)%Z -> nth_error us k = Some u ->
  recommend_known_user eq_u eq_i argsort m rc u cutoff allowed forbidden = Ok l ->
  (Z.of_nat (length l) <= cutoff)%Z /\ forall x s, In (x, s) l ->
    (forall i, nth_error is i = Some x -> ~ In i (nth k (rc_train rc) [])) /\
    eligible is (nth 0 (d_rows (rc_score rc [k])) []) allowed forbidden x s /\ finite s.
Proof. exact (known_user_respects eq_u eq_i argsort us is m rc k u cutoff allowed forbidden l). Qed.
Print Assumptions C24_known_user.
Theorem C24_known_user_batch {U I} (eq_u : forall a b : U, {a = b} + {a <> b}) (eq_i : forall a b : I, {a = b} + {a <> b})
  fl psort us is m rc qs cutoff allowed per_user forbidden n_threads launched sched l :
  partially_sorts psort -> fl NegInf = NegInf -> make_id_mapper eq_u eq_i us is = Ok m -> scores_shape rc (length is) -> qs = [] \/ 1 <= launched ->
  recommend_known_users eq_u eq_i fl psort m rc qs cutoff allowed per_user forbidden n_threads launched sched = Ok l ->
  exists ks, Forall2 (fun u k => nth_error us k = Some u) qs ks /\ length l = length qs /\
  forall r k, nth_error ks r = Some k -> length (nth r l []) <= cutoff /\
    forall x t, In (x, t) (nth r l []) ->
      (forall i, nth_error is i = Some x -> ~ In i (nth k (rc_train rc) [])) /\
      exists s, eligible is (nth r (d_rows (rc_score rc ks)) []) (batch_allowed allowed per_user r) (batch_forbidden forbidden r) x s /\ t = fl s /\ t <> NegInf.
Proof. exact (known_users_respect eq_u eq_i fl psort us is m rc qs cutoff allowed per_user forbidden n_threads launched sched l). Qed.
Print Assumptions C24_known_user_batch.
(** cutoff = 0: the single-user call still returns an item. *)
Theorem C24_cutoff_zero_refuted : exists m row l, make_mapper Nat.eq_dec ex_ids = Ok m /\ length row = length ex_ids /\
  recommended_items Nat.eq_dec ex_argsort m row 0 None None = Ok l /\ length l = 1.
Proof. exists ex_m, ex_row. eexists. split; [reflexivity|]. split; [reflexivity|]. split; [vm_compute; reflexivity|reflexivity]. Qed.
Print Assumptions C24_cutoff_zero_refuted.
(** A repeated allowed id is recommended repeatedly. *)
Theorem C24_duplicates_refuted : exists l l',
  recommended_items Nat.eq_dec ex_argsort ex_m ex_row 3 (Some [20; 20; 10]) None = Ok l /\ map fst l = [20; 20; 10] /\
  snd (recommended_items_batch Nat.eq_dec (fun s => s) ex_psort ex_m ex_scores 2 (Some [20; 20; 10]) None None 2 2 ex_sched) = Ok l' /\ map (map fst) l' = [[20; 20]; [20; 20]].
Proof. do 2 eexists. split; [vm_compute; reflexivity|]. split; [reflexivity|]. split; [vm_compute; reflexivity|reflexivity]. Qed.
Print Assumptions C24_duplicates_refuted.
(** The batch call overwrites the caller's scores of forbidden items. *)
Theorem C24_scores_untouched_refuted : exists scores forbidden,
  is_ok (snd (recommended_items_batch Nat.eq_dec (fun s => s) ex_psort ex_m scores 2 None None (Some forbidden) 2 2 ex_sched)) = true /\
  fst (recommended_items_batch Nat.eq_dec (fun s => s) ex_psort ex_m scores 2 None None (Some forbidden) 2 2 ex_sched) <> d_rows scores.
Proof. exists ex_scores, [[20]; []]. split; [vm_compute; reflexivity|]. vm_compute. discriminate. Qed.
Print Assumptions C24_scores_untouched_refuted.
(** An item rated 0 in a dictionary profile counts as unseen. *)
Theorem C24_zero_rating_refuted : exists rc l,
  recommend_new_user Nat.eq_dec ex_argsort ex_m rc (PDict [(20, 0%Q); (10, 1%Q)]) 2 None None = Ok l /\ map fst l = [20; 40].
Proof. exists (mkRecommender 0 4 (fun _ => mkDense 4 []) [] (fun _ => mkDense 4 [ex_row])). eexists. split; [vm_compute; reflexivity|reflexivity]. Qed.
Print Assumptions C24_zero_rating_refuted.
Example C24_example :
  sorts ex_argsort /\ partially_sorts ex_psort /\
  recommended_items Nat.eq_dec ex_argsort ex_m ex_row 2 (Some [40; 99; 10; 30; 20]) (Some [10]) = Ok [(20, zfin 7); (40, zfin 5)] /\
  recommended_items Nat.eq_dec ex_argsort ex_m ex_row 20 None (Some [77]) = Ok [(20, zfin 7); (40, zfin 5); (10, zfin 3)] /\
  Forall (fun r => length r = length ex_ids) (d_rows ex_scores) /\
  snd (recommended_items_batch Nat.eq_dec (fun s => s) ex_psort ex_m ex_scores 2 None (Some [[10; 20]; [30; 20; 99]]) (Some [[20]; []]) 2 2 ex_sched)
    = Ok [[(10, zfin 3)]; [(30, zfin 3); (20, zfin 2)]].
Proof.
  split; [exact ex_argsort_ok|]. split; [exact ex_psort_ok|]. split; [vm_compute; reflexivity|]. split; [vm_compute; reflexivity|].
  split; [repeat constructor|vm_compute; reflexivity].
Qed.
Definition ex_rc : recommender :=
  mkRecommender 2 4 (fun ks => mkDense 4 (map (fun _ => [zfin 1; zfin 2; zfin 3; zfin 4]) ks)) [[3]; [0; 1]]
                (fun x => mkDense 4 (repeat [zfin 1; zfin 2; zfin 3; zfin 4] (csr_n_rows x))).
Example C24_api_example : exists m, make_id_mapper Nat.eq_dec Nat.eq_dec [7; 8] ex_ids = Ok m /\ scores_shape ex_rc 4 /\
  recommend_known_user Nat.eq_dec Nat.eq_dec ex_argsort m ex_rc 7 2 None None = Ok [(30, zfin 3); (20, zfin 2)] /\
  recommend_known_users Nat.eq_dec Nat.eq_dec (fun s => s) ex_psort m ex_rc [8; 7] 2 None None None 2 2 ex_sched
    = Ok [[(40, zfin 4); (30, zfin 3)]; [(30, zfin 3); (20, zfin 2)]] /\
  recommend_new_user Nat.eq_dec ex_argsort ex_m ex_rc (PList [40; 40; 99; 20]) 2 None None = Ok [(30, zfin 3); (10, zfin 1)] /\
  recommend_new_users Nat.eq_dec (fun s => s) ex_psort ex_m ex_rc [PList [40]; PDict [(30, 5%Q)]] 2 None None None 2 2 ex_sched
    = Ok [[(30, zfin 3); (20, zfin 2)]; [(40, zfin 4); (20, zfin 2)]] /\
  recommend_known_user Nat.eq_dec Nat.eq_dec ex_argsort m ex_rc 9 2 None None = Fail RuntimeError /\
  recommend_known_users Nat.eq_dec Nat.eq_dec (fun s => s) ex_psort m ex_rc [9] 2 None None None 2 2 ex_sched = Fail KeyError.
Proof.
  eexists. split; [vm_compute; reflexivity|]. split.
  - intros ks. cbn. split; auto. split; [apply map_length|]. apply Forall_forall. intros r Hr. apply in_map_iff in Hr as (k & <- & _). reflexivity.
  - repeat split; vm_compute; reflexivity.
Qed.

(** * C25: single-user and batch recommendation agree *)
(** For every conversion to float that keeps the order, the batch scores are
    the converted single-user scores, provided no score is +inf and none
    becomes -inf. *)
Theorem C25_scores_agree {I} (eq_dec : forall a b : I, {a = b} + {a <> b}) argsort fl psort ids m scores cutoff allowed per_user forbidden n_threads launched sched l :
  sorts argsort -> partially_sorts psort -> rounding fl -> make_mapper eq_dec ids = Ok m ->
  Forall (fun r => length r = length ids) (d_rows scores) -> d_cols scores = length ids -> d_rows scores = [] \/ 1 <= launched -> 1 <= cutoff ->
  (forall r s, In r (d_rows scores) -> In s r -> s <> PosInf) ->
  (forall r q, In r (d_rows scores) -> In (Fin q) r -> fl (Fin q) <> NegInf) ->
  snd (recommended_items_batch eq_dec fl psort m scores cutoff allowed per_user forbidden n_threads launched sched) = Ok l ->
  length l = length (d_rows scores) /\
  forall u, u < length l -> exists l1,
    recommended_items eq_dec argsort m (nth u (d_rows scores) []) (Z.of_nat cutoff) (batch_allowed allowed per_user u) (batch_forbidden forbidden u) = Ok l1 /\
    Forall2 (fun a b => scmp (fl (snd a)) (snd b) = Eq) l1 (nth u l []).
Proof. exact (single_batch_agree eq_dec argsort fl psort ids m scores cutoff allowed per_user forbidden n_threads launched sched l). Qed.
Print Assumptions C25_scores_agree.
(** The items agree as well when no two scores of the user are equal after conversion. *)
Theorem C25_items_agree {I} (eq_dec : forall a b : I, {a = b} + {a <> b}) argsort fl psort ids m scores cutoff allowed per_user forbidden n_threads launched sched l u l1 :
  sorts argsort -> partially_sorts psort -> rounding fl -> make_mapper eq_dec ids = Ok m ->
  Forall (fun r => length r = length ids) (d_rows scores) -> d_cols scores = length ids -> d_rows scores = [] \/ 1 <= launched -> 1 <= cutoff ->
  (forall r s, In r (d_rows scores) -> In s r -> s <> PosInf) ->
  (forall r q, In r (d_rows scores) -> In (Fin q) r -> fl (Fin q) <> NegInf) ->
  snd (recommended_items_batch eq_dec fl psort m scores cutoff allowed per_user forbidden n_threads launched sched) = Ok l ->
  u < length l ->
  (forall i j, i < length ids -> j < length ids -> i <> j -> scmp (fl (nth i (nth u (d_rows scores) []) NegInf)) (fl (nth j (nth u (d_rows scores) []) NegInf)) <> Eq) ->
  recommended_items eq_dec argsort m (nth u (d_rows scores) []) (Z.of_nat cutoff) (batch_allowed allowed per_user u) (batch_forbidden forbidden u) = Ok l1 ->
  map fst l1 = map fst (nth u l []).
Proof. exact (single_batch_items eq_dec argsort fl psort ids m scores cutoff allowed per_user forbidden n_threads launched sched l u l1). Qed.
Print Assumptions C25_items_agree.
Example C25_example : exists l l1, rounding (fun s => s) /\
  snd (recommended_items_batch Nat.eq_dec (fun s => s) ex_psort ex_m ex_scores 2 None None (Some [[20]; [40]]) 2 2 ex_sched) = Ok l /\
  recommended_items Nat.eq_dec ex_argsort ex_m (nth 1 (d_rows ex_scores) []) 2 None (Some [40]) = Ok l1 /\ l1 = nth 1 l [] /\ map fst l1 = [30; 20].
Proof. do 2 eexists. split; [exact id_rounding|]. split; [vm_compute; reflexivity|]. split; [vm_compute; reflexivity|]. split; reflexivity. Qed.
(** +inf scores: dropped by the single-user call, returned by the batch call. *)
Theorem C25_infinite_refuted : exists row l1 l,
  recommended_items Nat.eq_dec ex_argsort ex_m row 2 None None = Ok l1 /\
  snd (recommended_items_batch Nat.eq_dec (fun s => s) ex_psort ex_m (mkDense 4 [row]) 2 None None None 1 1 (repeat 0 9)) = Ok [l] /\
  map fst l1 = [20; 40] /\ map fst l = [30; 20].
Proof. exists [zfin 3; zfin 7; PosInf; zfin 5]. do 2 eexists. split; [vm_compute; reflexivity|]. split; [vm_compute; reflexivity|]. split; reflexivity. Qed.
Print Assumptions C25_infinite_refuted.
(** cutoff = 0. *)
Theorem C25_cutoff_zero_refuted : exists l1,
  recommended_items Nat.eq_dec ex_argsort ex_m ex_row 0 None None = Ok l1 /\ length l1 = 1 /\
  snd (recommended_items_batch Nat.eq_dec (fun s => s) ex_psort ex_m (mkDense 4 [ex_row]) 0 None None None 1 1 (repeat 0 9)) = Ok [[]].
Proof. eexists. split; [vm_compute; reflexivity|]. split; [reflexivity|vm_compute; reflexivity]. Qed.
Print Assumptions C25_cutoff_zero_refuted.
(** float64 scores are converted to binary32 by the batch call: different
    scores become equal and the best item may be missed. *)
Theorem C25_float32_refuted : exists row l1 l,
  recommended_items Nat.eq_dec ex_argsort ex_m row 1 None None = Ok l1 /\
  snd (recommended_items_batch Nat.eq_dec fl32 ex_psort ex_m (mkDense 4 [row]) 1 None None None 1 1 (repeat 0 9)) = Ok [l] /\
  map fst l1 = [20] /\ map fst l = [10].
Proof. exists [zfin 16777216; zfin 16777217; zfin 1; zfin 2]. do 2 eexists. split; [vm_compute; reflexivity|]. split; [vm_compute; reflexivity|]. split; reflexivity. Qed.
Print Assumptions C25_float32_refuted.
(** If std::async defers every task, the batch call returns empty lists. *)
Theorem C25_deferred_refuted : exists l1,
  recommended_items Nat.eq_dec ex_argsort ex_m ex_row 2 None None = Ok l1 /\ length l1 = 2 /\
  snd (recommended_items_batch Nat.eq_dec (fun s => s) ex_psort ex_m (mkDense 4 [ex_row]) 2 None None None 1 0 []) = Ok [[]].
Proof. eexists. split; [vm_compute; reflexivity|]. split; [reflexivity|vm_compute; reflexivity]. Qed.
Print Assumptions C25_deferred_refuted.

(** * C26: user profiles become the documented matrix rows *)
Theorem C26_shape {I} (eq_dec : forall a b : I, {a = b} + {a <> b}) ids m ps : make_mapper eq_dec ids = Ok m ->
  csr_n_rows (profiles_to_matrix eq_dec m ps) = length ps /\ csr_n_cols (profiles_to_matrix eq_dec m ps) = length ids.
Proof. exact (profiles_shape eq_dec ids m ps). Qed.
Print Assumptions C26_shape.
Theorem C26_entries {I} (eq_dec : forall a b : I, {a = b} + {a <> b}) ids m ps u i p x :
  make_mapper eq_dec ids = Ok m -> nth_error ps u = Some p -> nth_error ids i = Some x ->
  (csr_entry (profiles_to_matrix eq_dec m ps) u i == rating eq_dec p x)%Q.
Proof. exact (profiles_matrix eq_dec ids m ps u i p x). Qed.
Print Assumptions C26_entries.
Example C26_example :
  map (fun u => map (fun i => csr_entry (profiles_to_matrix Nat.eq_dec ex_m [PList [20; 99; 20; 40]; PList []; PDict [(98, 7%Q); (10, (5 # 2)%Q)]]) u i) [0; 1; 2; 3]) [0; 1; 2]
  = [[0; 2; 0; 1]; [0; 0; 0; 0]; [5 # 2; 0; 0; 0]]%Q.
Proof. vm_compute. reflexivity. Qed.

(** * C51: threads and schedules do not change batch recommendations *)
Theorem C51_threads {I} (eq_dec : forall a b : I, {a = b} + {a <> b}) fl psort ids m scores cutoff allowed per_user forbidden n1 n2 k1 k2 s1 s2 r1 r2 :
  make_mapper eq_dec ids = Ok m ->
  d_rows scores = [] \/ 1 <= k1 -> d_rows scores = [] \/ 1 <= k2 ->
  recommended_items_batch eq_dec fl psort m scores cutoff allowed per_user forbidden n1 k1 s1 = r1 ->
  recommended_items_batch eq_dec fl psort m scores cutoff allowed per_user forbidden n2 k2 s2 = r2 ->
  is_ok (snd r1) = true -> is_ok (snd r2) = true -> r1 = r2.
Proof. exact (batch_threads eq_dec fl psort ids m scores cutoff allowed per_user forbidden n1 n2 k1 k2 s1 s2 r1 r2). Qed.
Print Assumptions C51_threads.
Example C51_example :
  snd (recommended_items_batch Nat.eq_dec (fun s => s) ex_psort ex_m ex_scores 2 None None None 2 2 ex_sched)
  = snd (recommended_items_batch Nat.eq_dec (fun s => s) ex_psort ex_m ex_scores 2 None None None 3 1 (repeat 0 7)) /\
  is_ok (snd (recommended_items_batch Nat.eq_dec (fun s => s) ex_psort ex_m ex_scores 2 None None None 2 2 ex_sched)) = true.
Proof. split; vm_compute; reflexivity. Qed.
