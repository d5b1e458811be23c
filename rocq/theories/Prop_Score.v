(** Property C57: the scoring interface.
    [well_formed r]: the learnt matrices have the right shapes.  [denotes n k u]:
    the index [k] means user [u] (negative indices count from the end).
    [true_score r u i] is the score of the recommender's definition as a plain
    sum (user profile times item weights, similar users' interactions, inner
    product of embeddings plus bias, popularity). *)
From Coq Require Import QArith.
From Verif Require Import Base Eval_Model Score_Model Score_Spec Score_Proofs Ex_Score.
Local Open Scope nat_scope.

(** Every row of [get_score] is the score of the user asked for. *)
Theorem C57_get_score r us S : well_formed r -> (forall k, In k us -> exists u, denotes (r_users r) k u) ->
  get_score r us = Ok S ->
  length S = length us /\
  forall p k u, nth_error us p = Some k -> denotes (r_users r) k u ->
    length (nth p S []) = r_items r /\ forall i, i < r_items r -> (cell S p i == true_score r u i)%Q.
Proof. exact (get_score_value r us S). Qed.
Print Assumptions C57_get_score.

(** The same for a block of users. *)
Theorem C57_block r b e S : well_formed r -> b <= e -> e <= r_users r ->
  get_score_block r (Z.of_nat b) (Z.of_nat e) = Ok S ->
  length S = e - b /\
  forall p i, p < e - b -> i < r_items r -> (cell S p i == true_score r (b + p) i)%Q.
Proof. exact (block_value r b e S). Qed.
Print Assumptions C57_block.

(** Where blocks are implemented they agree with the call for single users,
    with and without masking, including whether an exception is raised. *)
Theorem C57_block_agrees r b e : well_formed r -> b <= e -> e <= r_users r -> has_block r = true ->
  get_score_block r (Z.of_nat b) (Z.of_nat e) = get_score r (map Z.of_nat (seq b (e - b))) /\
  get_score_remove_seen_block r (Z.of_nat b) (Z.of_nat e) = get_score_remove_seen r (map Z.of_nat (seq b (e - b))).
Proof. intros H1 H2 H3 H4. exact (conj (block_is_score r b e H1 H2 H3 H4) (remove_seen_block r b e H1 H2 H3 H4)). Qed.
Print Assumptions C57_block_agrees.

(** Masking puts -inf on exactly the items with a non-zero training
    interaction of that user and keeps the other scores. *)
Theorem C57_masked r us S : well_formed r -> get_score_remove_seen r us = Ok S ->
  exists S0, get_score r us = Ok S0 /\ length S = length us /\
  forall p k u, nth_error us p = Some k -> denotes (r_users r) k u ->
    length (nth p S []) = r_items r /\
    forall i, i < r_items r ->
      (seen (nth u (r_X r) []) i -> nth i (nth p S []) PosInf = NegInf) /\
      (~ seen (nth u (r_X r) []) i -> nth i (nth p S []) PosInf = Fin (cell S0 p i)).
Proof. exact (remove_seen_value r us S). Qed.
Print Assumptions C57_masked.

(** After [learn] scores are returned for all users; before it nothing is. *)
Theorem C57_returns r us : well_formed r -> learnt r = true ->
  (forall k, In k us -> exists u, denotes (r_users r) k u) ->
  (exists S, get_score r us = Ok S) /\ (exists S, get_score_remove_seen r us = Ok S).
Proof. intros H1 H2 H3. exact (conj (get_score_total r us H1 H2 H3) (remove_seen_total r us H1 H2 H3)). Qed.
Print Assumptions C57_returns.
Theorem C57_before_learn r us b e : learnt r = false ->
  (exists er, get_score r us = Fail er) /\ (exists er, get_score_block r b e = Fail er).
Proof. exact (not_learnt r us b e). Qed.
Print Assumptions C57_before_learn.

(** Which exception it is. *)
Theorem C57_before_learn_error r us b e : learnt r = false -> (forall k, In k us -> exists u, denotes (r_users r) k u) ->
  get_score r us = Fail (unlearnt_error r) /\
  get_score_block r b e = Fail (if has_block r then RuntimeError else NotImplemented).
Proof. exact (not_learnt_error r us b e). Qed.
Print Assumptions C57_before_learn_error.

(** Item-similarity recommenders treat a new user with the profile of a known
    user like that user; the scores are profile times weights for any profile. *)
Theorem C57_cold_similarity nt it r W us rows : r_model r = Similarity W -> well_formed r ->
  py_take (r_X r) us = Ok rows ->
  get_score_cold_user nt it r (r_items r) rows = get_score r us.
Proof. exact (similarity_cold nt it r W us rows). Qed.
Print Assumptions C57_cold_similarity.
Theorem C57_cold_similarity_value nt it r W X S : r_model r = Similarity (Some W) -> well_formed r ->
  (forall x e, In x X -> In e x -> fst e < r_items r) ->
  get_score_cold_user nt it r (r_items r) X = Ok S ->
  length S = length X /\
  forall p i, p < length X -> i < r_items r ->
    (cell S p i == qsum (r_items r) (fun j => value (nth p X []) j * cell W j i))%Q.
Proof. exact (similarity_cold_value nt it r W X S). Qed.
Print Assumptions C57_cold_similarity_value.
(** Truncated SVD projects the profile on the components. *)
Theorem C57_cold_svd_value nt it r z c X S : r_model r = TruncSVD (Some (z, c)) -> well_formed r ->
  (forall x e, In x X -> In e x -> fst e < r_items r) ->
  get_score_cold_user nt it r (r_items r) X = Ok S ->
  length S = length X /\
  forall p i, p < length X -> i < r_items r ->
    (cell S p i == qsum (length c) (fun k => qsum (r_items r) (fun j => value (nth p X []) j * cell c k j) * cell c k i))%Q.
Proof. exact (svd_cold_value nt it r z c X S). Qed.
Print Assumptions C57_cold_svd_value.
Theorem C57_cold_masked nt it r cols X S : get_score_cold_user_remove_seen nt it r cols X = Ok S ->
  exists S0, get_score_cold_user nt it r cols X = Ok S0 /\
  (length S0 = length X -> forall p i, p < length X -> i < length (nth p S0 []) ->
      (seen (nth p X []) i -> nth i (nth p S []) PosInf = NegInf) /\
      (~ seen (nth p X []) i -> nth i (nth p S []) PosInf = Fin (cell S0 p i))).
Proof. exact (cold_remove_seen_value nt it r cols X S). Qed.
Print Assumptions C57_cold_masked.

(** Scores recomputed from the published embeddings are the scores. *)
Theorem C57_user_embedding r E : well_formed r -> get_user_embedding r = Ok E ->
  get_score_from_user_embedding r E = get_score r (map Z.of_nat (seq 0 (r_users r - 0))).
Proof. exact (user_embedding_scores r E). Qed.
Print Assumptions C57_user_embedding.
Theorem C57_item_embedding r us E : well_formed r -> (forall fm, r_model r <> Bprfm fm) ->
  get_item_embedding r = Ok E -> get_score_from_item_embedding r us E = get_score r us.
Proof. exact (item_embedding_scores r us E). Qed.
Print Assumptions C57_item_embedding.

(** For BPRFM they lack exactly the item biases. *)
Theorem C57_bpr_item_embedding r u i b us E S : well_formed r -> r_model r = Bprfm (Some (u, i, b)) ->
  get_item_embedding r = Ok E -> get_score_from_item_embedding r us E = Ok S ->
  exists S', get_score r us = Ok S' /\ length S' = length S /\
  forall p j, p < length S -> j < r_items r -> (cell S' p j == cell S p j + nth j b 0)%Q.
Proof. exact (bpr_item_embedding r u i b us E S). Qed.
Print Assumptions C57_bpr_item_embedding.

(** The popularity score is the sum of an item's interactions over all users. *)
Theorem C57_toppop X n i : i < n ->
  (nth i (toppop_learn X n) 0 == qsum (length X) (fun u => value (nth u X []) i))%Q.
Proof. exact (toppop_value X n i). Qed.
Print Assumptions C57_toppop.

Example C57_example : well_formed ex_sim /\ well_formed ex_bpr /\ well_formed ex_svd /\ well_formed ex_ials /\
  get_score ex_sim [1; -3]%Z = Ok [[10; 0]; [0; 3]]%Q /\
  get_score_block ex_sim 0 2 = Ok [[0; 3]; [10; 0]]%Q /\
  get_score_remove_seen ex_sim [1]%Z = Ok [[Fin 10; NegInf]] /\
  get_score ex_usim [0]%Z = Ok [[0; 2]]%Q /\
  get_score ex_bpr [2]%Z = Ok [[10; 21]]%Q /\ get_score_block ex_ials 1 3 = Ok [[2; 8]; [3; 12]]%Q /\
  get_score ex_pop [0; 0]%Z = Ok [[1; 2]; [1; 2]]%Q /\ get_score_block ex_pop 0 1 = Fail NotImplemented /\
  get_score ex_sim [3]%Z = Fail IndexError /\ get_score ex_new [0]%Z = Fail RuntimeError.
Proof. split; [exact ex_sim_wf|split; [exact ex_bpr_wf|split; [exact ex_svd_wf|split; [exact ex_ials_wf|]]]]. vm_compute. repeat split. Qed.

(** The number of rows is not always [end - begin] as documented: a block that
    reaches past the last user is cut silently, or refused, depending on the
    recommender. *)
Theorem C57_block_shape_refuted : exists r r' b e S, well_formed r /\ well_formed r' /\ r_X r = r_X r' /\
  get_score_block r b e = Ok S /\ Z.of_nat (length S) <> (e - b)%Z /\ get_score_block r' b e = Fail InvalidArgument.
Proof.
  exists ex_sim, ex_ials, 0%Z, 4%Z, [[0; 3]; [10; 0]; [0; 0]]%Q.
  split; [exact ex_sim_wf|split; [exact ex_ials_wf|]]. vm_compute. repeat split; discriminate.
Qed.
(** BPRFM leaves the item biases out when scoring from item embeddings, so its
    own embeddings do not give its own scores, not even the same ranking. *)
Theorem C57_bpr_item_embedding_refuted : exists r E us S S', well_formed r /\ get_item_embedding r = Ok E /\
  get_score_from_item_embedding r us E = Ok S /\ get_score r us = Ok S' /\ S <> S'.
Proof.
  exists ex_bpr, [[1]; [4]]%Q, [0]%Z, [[1; 4]]%Q, [[8; 13]]%Q. split; [exact ex_bpr_wf|]. vm_compute. repeat split; discriminate.
Qed.
