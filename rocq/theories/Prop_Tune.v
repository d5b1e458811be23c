(** C37, C46: hyper-parameter search.  Only statements; the proofs are in
    Tune_Proofs.v, TuneES_Proofs.v and Doubling_Proofs.v. *)
From Verif Require Import Base EarlyStop_Model EarlyStop_Spec PyStr_Model PyStr_Spec Tune_Model Tune_Spec Tune_Proofs TuneES_Proofs Doubling_Proofs Ex_PyStr Ex_Tune.
From Coq Require Import QArith.
Local Open Scope nat_scope.

(** C37.  In every trial of a search the recommender gets the caller's keyword
    arguments, and otherwise exactly what was suggested. *)
Theorem C37_fixed_win : forall digit_value sample train data data_suggest suggest range fixed n s,
  data = true \/ data_suggest = true -> dict_ok fixed ->
  let f := match suggest with Some f => f | None => default_suggest range fixed end in
  (forall k, dict_ok (fst (f (sample k)))) ->
  let res := tune digit_value sample train data data_suggest suggest range fixed n s in
  exists new, fst res = s ++ new /\ forall t, In t new ->
    dict_ok (t_used t) /\ (forall k x, In (k, x) fixed -> In (k, x) (t_used t)) /\
    (forall k x, ~ In k (keys fixed) -> (In (k, x) (t_used t) <-> In (k, x) (fst (f (sample (t_number t)))))).
Proof. exact tune_fixed_win. Qed.
Print Assumptions C37_fixed_win.
Example C37_fixed_win_example :
  map t_used (fst (tune ascii_table tu_sample tu_train true false None tu_range [(k_alpha, VFloat 7)] 2 [])) =
  [[(k_reg, VFloat 1); (k_alpha, VFloat 7)]; [(k_reg, VFloat (1 # 2)); (k_alpha, VFloat 7)]] /\
  map t_used (fst (tune ascii_table tu_sample tu_train true false (Some tu_custom) tu_range [(k_reg, VFloat 7)] 1 [])) = [[(k_reg, VFloat 7)]].
Proof. split; reflexivity. Qed.

(** The reported parameters are the suggested and learnt ones of the trial
    with the best score (a failing or pruned trial has none). *)
Theorem C37_best : forall digit_value sample train suggest range fixed n best,
  let res := tune digit_value sample train true false suggest range fixed n [] in
  snd res = Ok best -> exists t score learnt, In t (fst res) /\
    train (t_number t) (t_used t) = Scored score learnt /\ score <> NaN /\
    (forall k x, In (k, x) best <-> In (k, x) (t_params t) \/
       (In (k, x) (dict_update [] learnt) /\ is_valid_param_name digit_value k = true)) /\
    forall t' score' learnt', In t' (fst res) -> train (t_number t') (t_used t') = Scored score' learnt' -> fgt score' score = false.
Proof. exact best_score. Qed.
Print Assumptions C37_best.
Example C37_best_example :
  snd (tune ascii_table tu_sample tu_train true false None tu_range [] 5 []) =
  Ok [(k_reg, VFloat (1 # 2)); (k_alpha, VFloat (2 # 2)); (k_epochs, VInt 6)].
Proof. reflexivity. Qed.

(** A study that already has trials takes part: the first trial of least
    value among all its complete trials is reported. *)
Theorem C37_best_of_study : forall digit_value sample train data data_suggest suggest range fixed n s best, study_ok s ->
  let res := tune digit_value sample train data data_suggest suggest range fixed n s in
  snd res = Ok best -> exists t v, least_complete (fst res) t v /\
    forall k x, In (k, x) best <-> In (k, x) (t_params t) \/ (In (k, x) (t_attrs t) /\ is_valid_param_name digit_value k = true).
Proof. exact tune_best_study. Qed.
Print Assumptions C37_best_of_study.
Example C37_best_of_study_example :
  let s := fst (tune ascii_table tu_sample tu_train true false None tu_range [] 2 []) in
  study_ok s /\ snd (tune ascii_table tu_sample tu_train true false None tu_range [] 1 s) =
  Ok [(k_reg, VFloat (1 # 2)); (k_alpha, VFloat (2 # 2)); (k_epochs, VInt 6)].
Proof.
  split; [|reflexivity]. intros t v I S. cbn in I. destruct I as [<-|[<-|[]]]; cbn in S; injection S as <-; discriminate.
Qed.

(** With the default suggestions, the reported parameters and the caller's
    together are those the best trial was trained with, plus the learnt ones;
    no name fixed by the caller was suggested. *)
Theorem C37_reproducible : forall digit_value sample train range fixed n best, NoDup (map fst range) -> dict_ok fixed ->
  let res := tune digit_value sample train true false None range fixed n [] in
  snd res = Ok best -> exists t v, least_complete (fst res) t v /\
    (forall k x, In (k, x) (t_used t) <-> In (k, x) fixed \/ In (k, x) (t_params t)) /\
    (forall k, In k (keys (t_params t)) -> ~ In k (keys fixed)) /\
    (forall k x, In (k, x) best <-> In (k, x) (t_params t) \/ (In (k, x) (t_attrs t) /\ is_valid_param_name digit_value k = true)).
Proof. exact default_reproduces. Qed.
Print Assumptions C37_reproducible.
Example C37_reproducible_example :
  NoDup (map fst tu_range) /\
  snd (tune ascii_table tu_sample tu_train true false None tu_range [(k_alpha, VFloat 7)] 3 []) =
  Ok [(k_reg, VFloat (1 # 2)); (k_epochs, VInt 6)].
Proof. split; [|reflexivity]. repeat constructor; cbn; intuition discriminate. Qed.

(** With early stopping: the reported number of epochs is the one at which the
    best trial scored best, and no validation of any complete trial scored
    better. *)
Theorem C37_early_stopping : forall (T B : Type) (create : dict -> T) (run : dict -> T -> T) (save : T -> B) (load : B -> T -> T)
    (score : T -> fval) (prune : nat -> Z -> fval -> bool) (v : nat) (d max_epoch : Z) (train_epochs : pystr), 1 <= v ->
  (forall t t', score (load (save t) t') = score t) ->
  forall digit_value sample, is_valid_param_name digit_value train_epochs = true -> forall suggest range fixed n best,
  let D := Z.to_nat (Z.max 1 d) in
  let M := Z.to_nat max_epoch / v in
  let ss := fun params => validation (create params) (run params) score v in
  let train := train_early_stopping create run save load score prune (Z.of_nat v) d max_epoch train_epochs in
  let res := tune digit_value sample train true false suggest range fixed n [] in
  snd res = Ok best -> exists t m b, In t (fst res) /\
    stops_after (ss (t_used t)) D M m /\ first_best (ss (t_used t)) m b /\
    In (train_epochs, VInt (Z.of_nat (b * v))) best /\
    forall t' w m', In t' (fst res) -> t_state t' = Complete w -> stops_after (ss (t_used t')) D M m' ->
      forall i, 1 <= i <= m' -> fgt (ss (t_used t') i) (ss (t_used t) b) = false.
Proof. exact @tune_early_stopping. Qed.
Print Assumptions C37_early_stopping.
Example C37_early_stopping_example :
  let res := tune ascii_table tu_sample te_train true false None tu_range [] 4 [] in
  snd res = Ok [(k_reg, VFloat (1 # 2)); (k_alpha, VFloat (2 # 2)); (k_epochs, VInt 6)] /\
  map t_state (fst res) = [Complete (Fin (-2 # 1)); Complete (Fin (-6 # 1)); Pruned (Some (Fin (-2 # 1))); Complete (Fin (-6 # 1))].
Proof. split; reflexivity. Qed.

(** A trial is pruned exactly when the pruner stops its training, and its value
    is then the score of the validation at which it was stopped. *)
Theorem C37_pruned : forall (T B : Type) (create : dict -> T) (run : dict -> T -> T) (save : T -> B) (load : B -> T -> T)
    (score : T -> fval) (prune : nat -> Z -> fval -> bool) (v : nat) (d max_epoch : Z) (train_epochs : pystr), 1 <= v ->
  forall (n : nat) (params : dict),
  let D := Z.to_nat (Z.max 1 d) in
  let M := Z.to_nat max_epoch / v in
  let ss := validation (create params) (run params) score v in
  let trial := train_early_stopping create run save load score prune (Z.of_nat v) d max_epoch train_epochs n params in
  ((exists x, trial = PrunedAt x) <-> exists m, m <= M /\ pruned_at ss v D (prune n) m) /\
  forall x m, trial = PrunedAt x -> pruned_at ss v D (prune n) m -> x = Some (ss m).
Proof.
  intros T B create run save load score prune v d max_epoch train_epochs Hv n params. split.
  - exact (train_pruned create run save load score prune v d max_epoch train_epochs Hv n params).
  - exact (train_pruned_value create run save load score prune v d max_epoch train_epochs Hv n params).
Qed.
Print Assumptions C37_pruned.
Example C37_pruned_example : exists x, te_train 2 [] = PrunedAt (Some x).
Proof. eexists. vm_compute. reflexivity. Qed.

(** If no trial completes, ValueError; also without data. *)
Theorem C37_errors : forall digit_value sample train data data_suggest suggest range fixed n s, study_ok s ->
  (forall k d e, train k d <> Raised e) ->
  let res := tune digit_value sample train data data_suggest suggest range fixed n s in
  (data = false /\ data_suggest = false \/ (forall t v, In t (fst res) -> t_state t <> Complete v)) -> snd res = Fail ValueError.
Proof. exact tune_errors. Qed.
Print Assumptions C37_errors.
Example C37_errors_example : snd (tune ascii_table tu_sample (fun _ _ => PrunedAt None) true false None tu_range [] 4 []) = Fail ValueError.
Proof. reflexivity. Qed.

(** The documentation says fixed arguments are not among the returned
    parameters.  They are when a suggest function asks for them, with a value
    no recommender was trained with ... *)
Theorem C37_custom_suggest_refuted : exists best x y,
  snd (tune ascii_table tu_sample tu_train true false (Some tu_custom) tu_range [(k_reg, VFloat x)] 1 []) = Ok best /\
  In (k_reg, VFloat y) best /\ ~ (x == y)%Q /\
  map t_used (fst (tune ascii_table tu_sample tu_train true false (Some tu_custom) tu_range [(k_reg, VFloat x)] 1 [])) = [[(k_reg, VFloat x)]].
Proof.
  eexists _, (1 # 2)%Q, 1%Q. split; [vm_compute; reflexivity|]. split; [now left|]. split; [intros H; discriminate|]. vm_compute. reflexivity.
Qed.
Print Assumptions C37_custom_suggest_refuted.
(** ... and when they are learnt. *)
Theorem C37_fixed_epochs_refuted : exists best,
  snd (tune ascii_table tu_sample tu_train true false None tu_range [(k_epochs, VInt 3)] 1 []) = Ok best /\ In (k_epochs, VInt 5) best.
Proof. eexists. split; [vm_compute; reflexivity|]. right. right. now left. Qed.
Print Assumptions C37_fixed_epochs_refuted.
(** Suggesting a name that is also learnt makes the search end in TypeError
    after all trials succeeded. *)
Theorem C37_suggested_epochs_refuted :
  snd (tune ascii_table tu_sample tu_train true false (Some tu_custom_epochs) tu_range [] 2 []) = Fail TypeError.
Proof. vm_compute. reflexivity. Qed.
Print Assumptions C37_suggested_epochs_refuted.

(** C46.  The search looks at initial, 2 initial, 4 initial, ... up to the
    maximum, every trial there is trained with that dimension, and the result
    holds the dimension, the suggested and the learnt parameters of a complete
    trial that no complete trial of any dimension beats. *)
Theorem C46_doubling : forall digit_value sample train tune_range n_trials_initial n_trials_following scale suggest_initial n_components,
  (forall f ask, suggest_initial = Some f -> dict_ok (fst (f ask)) /\ dict_ok (snd (f ask))) ->
  forall fuel initial maximal best studies, (1 <= initial)%Z ->
  tune_doubling_dimension digit_value sample train tune_range n_trials_initial n_trials_following scale suggest_initial n_components
    fuel initial maximal = Ok (best, studies) ->
  (forall s, In s studies -> fair_pruning s) ->
  let m := length studies in
  1 <= m /\ (initial * 2 ^ (Z.of_nat m - 1) <= maximal < initial * 2 ^ Z.of_nat m)%Z /\
  (forall i t, i < m -> In t (nth i studies []) -> In (n_components, VInt (initial * 2 ^ Z.of_nat i)) (t_used t)) /\
  exists i t v, i < m /\ In t (nth i studies []) /\ t_state t = Complete v /\
    (forall j t' v', j < m -> In t' (nth j studies []) -> t_state t' = Complete v' -> fgt v v' = false) /\
    (forall k x, In (k, x) best <-> (k = n_components /\ x = VInt (initial * 2 ^ Z.of_nat i)) \/
       (k <> n_components /\ (In (k, x) (t_params t) \/ (In (k, x) (t_attrs t) /\ is_valid_param_name digit_value k = true)))).
Proof. exact doubling_spec. Qed.
Print Assumptions C46_doubling.
Example C46_doubling_example : exists studies,
  db_tune db_scores 10 4 20 = Ok ([(k_reg, VFloat (1 * 1 * 3 * 1)); (k_alpha, VFloat (2 * 1 * 3 * 1)); (k_epochs, VInt 1); (k_dim, VInt 8)], studies) /\
  length studies = 3 /\ forall s, In s studies -> fair_pruning s.
Proof.
  eexists. split; [vm_compute; reflexivity|]. split; [reflexivity|]. intros s I t v It S. exfalso.
  repeat (destruct I as [<-|I]; [repeat (destruct It as [<-|It]; [discriminate|]); destruct It|]). destruct I.
Qed.

(** After the first dimension, exactly the float parameters of the previous
    best trial are asked for, within a factor [scale] of their values. *)
Theorem C46_neighborhood : forall digit_value sample train tune_range n_trials_initial n_trials_following scale suggest_initial n_components,
  (forall f ask, suggest_initial = Some f -> dict_ok (fst (f ask)) /\ dict_ok (snd (f ask))) ->
  forall fuel initial maximal best studies i t, (1 <= initial)%Z ->
  tune_doubling_dimension digit_value sample train tune_range n_trials_initial n_trials_following scale suggest_initial n_components
    fuel initial maximal = Ok (best, studies) ->
  S i < length studies -> In t (nth (S i) studies []) ->
  exists prev v, least_complete (nth i studies []) prev v /\
    forall k x, In (k, x) (t_params t) <-> exists q, In (k, VFloat q) (t_params prev) /\
      x = sample (initial * 2 ^ Z.of_nat (S i))%Z (t_number t) k (DFloat (q / scale) (q * scale) true).
Proof. exact doubling_neighborhood. Qed.
Print Assumptions C46_neighborhood.
Example C46_neighborhood_example : exists best studies,
  db_tune db_scores 10 4 20 = Ok (best, studies) /\ map t_params (nth 1 studies []) =
  [[(k_reg, VFloat (1 * 1 * 3 * 1)); (k_alpha, VFloat (2 * 1 * 3 * 1))]; [(k_reg, VFloat (1 * 1 * 3 * (1 # 2))); (k_alpha, VFloat (2 * 1 * 3 * (1 # 2)))]].
Proof. eexists _, _. split; vm_compute; reflexivity. Qed.

(** The search ends when the initial dimension is positive. *)
Theorem C46_ends : forall digit_value sample train tune_range n_trials_initial n_trials_following scale suggest_initial n_components
    fuel initial maximal, (1 <= initial)%Z -> Z.to_nat maximal <= fuel ->
  let search := fun fuel => tune_doubling_dimension digit_value sample train tune_range n_trials_initial n_trials_following scale
    suggest_initial n_components fuel initial maximal in
  search fuel <> Pending /\ search fuel = search (Z.to_nat maximal).
Proof. exact doubling_settles. Qed.
Print Assumptions C46_ends.
Example C46_ends_example : is_ok (db_tune db_scores 20 4 20) = true.
Proof. vm_compute. reflexivity. Qed.

(** An initial dimension of 0 makes it run for ever. *)
Theorem C46_zero_dimension_refuted : forall fuel, db_tune db_scores fuel 0 20 = Pending.
Proof. exact ex_zero. Qed.
Print Assumptions C46_zero_dimension_refuted.
(** Equal best scores at two dimensions make it fail after all the work. *)
Theorem C46_equal_scores_refuted : exists scores, db_tune scores 10 4 8 = Fail TypeError.
Proof. exists (fun _ => 1%Q). vm_compute. reflexivity. Qed.
Print Assumptions C46_equal_scores_refuted.
(** An initial dimension above the maximal one raises ValueError. *)
Theorem C46_empty_refuted : exists scores initial maximal, (1 <= initial)%Z /\ db_tune scores 10 initial maximal = Fail ValueError.
Proof. exists db_scores, 8%Z, 4%Z. split; [lia|]. vm_compute. reflexivity. Qed.
Print Assumptions C46_empty_refuted.
(** Without fair pruning the dimension of a worse result can be reported: the
    value shown by a pruned trial counts. *)
Theorem C46_pruned_refuted : exists train best studies t v t' v',
  tune_doubling_dimension ascii_table (fun _ => tu_sample) train tu_range 2 2 3 None k_dim 10 4 8 = Ok (best, studies) /\
  In (k_dim, VInt 4) best /\ In t (nth 0 studies []) /\ (forall t'' v'', In t'' (nth 0 studies []) -> t_state t'' = Complete v'' -> v'' = v) /\
  t_state t = Complete v /\ In t' (nth 1 studies []) /\ t_state t' = Complete v' /\ fgt v v' = true.
Proof.
  exists (fun dim n _ => if (dim =? 4)%Z then (if Nat.eqb n 0 then Scored (Fin 0) [] else PrunedAt (Some (Fin 9))) else Scored (Fin 5) []).
  eexists _, _, _, _, _, _. split; [vm_compute; reflexivity|]. split; [right; right; now left|]. split; [now left|]. split.
  - intros t v [<-|[<-|[]]] E; [injection E as <-; reflexivity|discriminate].
  - split; [reflexivity|]. split; [now left|]. split; reflexivity.
Qed.
Print Assumptions C46_pruned_refuted.
