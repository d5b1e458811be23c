(** Property C64: recommenders, their configurations and tuned parameters.
    How strings are read as numbers and what a constructor makes of its bound
    arguments are arbitrary. *)
From Coq Require Import String.
From Coq Require Import List.
From Verif Require Import Base PyStr_Model EarlyStop_Model Ex_PyStr Tune_Model Tune_Spec Config_Model Config_Spec Config_Proofs Ex_Config.
From Coq Require Import QArith.
Local Open Scope Z_scope.

(** * C64 *)
(** A configuration accepts exactly its own fields with values of their types. *)
Theorem C64_accepts : forall int_of_str float_of_str bool_of_str c kw, dict_ok kw -> no_numerals c kw ->
  let good := forall k v, In (k, v) kw -> exists t d, In (k, (t, d)) (fields c) /\ fits t v in
  (good -> exists cfg, make_config int_of_str float_of_str bool_of_str c kw = Ok cfg /\ cfg_class cfg = c) /\
  (~ good -> make_config int_of_str float_of_str bool_of_str c kw = Fail ValueError).
Proof. exact config_iff. Qed.
Print Assumptions C64_accepts.
Example C64_accepts_example :
  make_config cf_int cf_float cf_bool AsymmetricCosineKNNConfig cf_kw =
    Ok (mkConfig AsymmetricCosineKNNConfig
      [arg "shrinkage" (VFloat 0); arg "top_k" (VInt 5); arg "n_threads" VNone; arg "feature_weighting" (VStr (str "BM_25"));
       arg "bm25_k1" (VFloat (6 # 5)); arg "bm25_b" (VFloat (3 # 4)); arg "alpha" (VFloat 1)]) /\
  make_config cf_int cf_float cf_bool AsymmetricCosineKNNConfig [arg "top_k" (VFloat (5 # 2))] = Fail ValueError /\
  make_config cf_int cf_float cf_bool AsymmetricCosineKNNConfig [arg "beta" (VFloat 1)] = Fail ValueError /\
  dict_ok cf_kw /\ no_numerals AsymmetricCosineKNNConfig cf_kw.
Proof.
  split; [reflexivity|]. split; [reflexivity|]. split; [reflexivity|]. split; [repeat constructor; cbn; intuition discriminate|].
  intros k s t d I J. cbn in I. destruct I as [[=]|[[=]|[[= <- _]|[]]]]. cbn in J. repeat (destruct J as [[= <- _]|J]; [exact Logic.I|] || destruct J as [[=]|J]). destruct J.
Qed.

(** A recommender made from a configuration gets the arguments the
    configuration was given, up to the type of numbers, if those with a
    different default are among them. *)
Theorem C64_same : forall int_of_str float_of_str bool_of_str T (build : recommender -> dict -> outcome T) r kw cfg,
  dict_ok kw -> no_numerals (config_of r) kw ->
  make_config int_of_str float_of_str bool_of_str (config_of r) kw = Ok cfg -> (forall k, In k (differing r) -> In k (keys kw)) ->
  exists a b, from_config T build r cfg = build r a /\ construct T build r kw = build r b /\ same_args a b.
Proof. exact from_config_same. Qed.
Print Assumptions C64_same.
Example C64_same_example : exists cfg, make_config cf_int cf_float cf_bool (config_of AsymmetricCosineKNNRecommender) cf_kw = Ok cfg /\
  from_config _ cf_build AsymmetricCosineKNNRecommender cfg = Ok (AsymmetricCosineKNNRecommender,
    [arg "shrinkage" (VFloat 0); arg "alpha" (VFloat 1); arg "top_k" (VInt 5); arg "feature_weighting" (VStr (str "BM_25"));
     arg "bm25_k1" (VFloat (6 # 5)); arg "bm25_b" (VFloat (3 # 4)); arg "n_threads" VNone]) /\
  construct _ cf_build AsymmetricCosineKNNRecommender cf_kw = Ok (AsymmetricCosineKNNRecommender,
    [arg "shrinkage" (VFloat 0); arg "alpha" (VInt 1); arg "top_k" (VFloat 5); arg "feature_weighting" (VStr (str "BM_25"));
     arg "bm25_k1" (VFloat (6 # 5)); arg "bm25_b" (VFloat (3 # 4)); arg "n_threads" VNone]).
Proof. eexists. split; [reflexivity|]. split; reflexivity. Qed.
(** The differing defaults: without alpha0, or train_epochs, the two are
    different recommenders. *)
Theorem C64_defaults_refuted : forall r, In r [IALSRecommender; BPRFMRecommender; MultVAERecommender] ->
  exists cfg a b k v w, make_config cf_int cf_float cf_bool (config_of r) [] = Ok cfg /\
    from_config _ cf_build r cfg = Ok (r, a) /\ construct _ cf_build r [] = Ok (r, b) /\
    dict_get a k = Some v /\ dict_get b k = Some w /\ ~ same_value v w.
Proof.
  intros r [<-|[<-|[<-|[]]]].
  - eexists _, _, _, (str "alpha0"), _, _. do 5 (split; [vm_compute; reflexivity|]). vm_compute. discriminate.
  - eexists _, _, _, (str "train_epochs"), _, _. do 5 (split; [vm_compute; reflexivity|]). vm_compute. discriminate.
  - eexists _, _, _, (str "train_epochs"), _, _. do 5 (split; [vm_compute; reflexivity|]). vm_compute. discriminate.
Qed.
Print Assumptions C64_defaults_refuted.

(** The constructor gets exactly what it is given, and defaults for the rest;
    an argument it does not have is a TypeError. *)
Theorem C64_construct : forall T (build : recommender -> dict -> outcome T) r kw, dict_ok kw ->
  ((forall k, In k (keys kw) -> In k (map fst (constructor r))) ->
   exists b, construct T build r kw = build r b /\ keys b = map fst (constructor r) /\
     (forall k v, In (k, v) kw -> In (k, v) b) /\
     (forall k d, In (k, d) (constructor r) -> ~ In k (keys kw) -> In (k, d) b)) /\
  (forall k, In k (keys kw) -> ~ In k (map fst (constructor r)) -> construct T build r kw = Fail TypeError).
Proof. exact construct_binds. Qed.
Print Assumptions C64_construct.
Example C64_construct_example :
  construct _ cf_build P3alphaRecommender [arg "top_k" (VInt 7)] =
    Ok (P3alphaRecommender, [arg "alpha" (VInt 1); arg "top_k" (VInt 7); arg "normalize_weight" (VBool false); arg "n_threads" VNone]) /\
  construct _ cf_build P3alphaRecommender [arg "beta" (VInt 7)] = Fail TypeError.
Proof. split; reflexivity. Qed.

(** A configuration of another class is refused. *)
Theorem C64_wrong_config : forall T (build : recommender -> dict -> outcome T) r cfg,
  cfg_class cfg <> config_of r -> from_config T build r cfg = Fail ValueError.
Proof. exact wrong_config. Qed.
Print Assumptions C64_wrong_config.
Example C64_wrong_config_example : exists cfg, make_config cf_int cf_float cf_bool BaseKNNConfig [] = Ok cfg /\
  from_config _ cf_build JaccardKNNRecommender cfg = Fail ValueError.
Proof. eexists. split; reflexivity. Qed.

(** The fields of a configuration are the arguments of the constructor, but
    for four of IALSRecommender. *)
Theorem C64_arguments : forall r k, In k (map fst (fields (config_of r))) <-> In k (map fst (constructor r)) /\ ~ In k (missing_fields r).
Proof. exact arguments. Qed.
Print Assumptions C64_arguments.
Example C64_arguments_example : In (str "bm25_b") (map fst (fields (config_of CosineUserKNNRecommender))) /\
  ~ In (str "bm25_b") (map fst (fields (config_of JaccardKNNRecommender))).
Proof. split; [apply known_spec; reflexivity|]. intros I. apply known_spec in I. discriminate. Qed.
(** So not every iALS model has a configuration. *)
Theorem C64_solver_refuted : exists kw x, construct _ cf_build IALSRecommender kw = Ok x /\
  make_config cf_int cf_float cf_bool IALSConfig kw = Fail ValueError.
Proof. exists [arg "solver_type" (VStr (str "IALSPP"))]. eexists. split; vm_compute; reflexivity. Qed.
Print Assumptions C64_solver_refuted.

(** What the default search returns can be used, with the fixed arguments, to
    make the configuration and the recommender; both are the same. *)
Theorem C64_tuned : forall int_of_str float_of_str bool_of_str T (build : recommender -> dict -> outcome T)
    digit_value sample train r fixed n best,
  (forall i k ds, In (k, ds) (default_tune_range r) -> in_dist ds (sample i k ds)) ->
  (forall i d score learnt, train i d = Scored score learnt -> learns r learnt) ->
  dict_ok fixed -> no_numerals (config_of r) fixed ->
  (exists cfg, make_config int_of_str float_of_str bool_of_str (config_of r) fixed = Ok cfg) ->
  snd (tune digit_value sample train true false None (default_tune_range r) fixed n []) = Ok best ->
  exists cfg a b, make_config int_of_str float_of_str bool_of_str (config_of r) (dict_update best fixed) = Ok cfg /\
    from_config T build r cfg = build r a /\ construct T build r (dict_update best fixed) = build r b /\ same_args a b.
Proof. exact tuned. Qed.
Print Assumptions C64_tuned.
Example C64_tuned_example :
  let r := AsymmetricCosineKNNRecommender in
  let fixed := [arg "shrinkage" (VInt 3)] in
  (forall i k ds, In (k, ds) (default_tune_range r) -> in_dist ds (cf_sample i k ds)) /\
  (exists cfg, make_config cf_int cf_float cf_bool (config_of r) fixed = Ok cfg) /\
  snd (tune ascii_table cf_sample cf_train true false None (default_tune_range r) fixed 3 []) =
    Ok [arg "top_k" (VInt 5); arg "feature_weighting" (VStr (str "TF_IDF")); arg "alpha" (VFloat 1)].
Proof.
  split; [|split; [eexists; reflexivity|reflexivity]]. intros i k ds I. cbn in I.
  repeat (destruct I as [[= <- <-]|I]; [cbn|]); [| | | |destruct I].
  - exists 5. split; [reflexivity|]. split; [lia|]. exists 1. reflexivity.
  - eexists. split; [reflexivity|]. split; vm_compute; discriminate.
  - auto.
  - eexists. split; [reflexivity|]. split; vm_compute; discriminate.
Qed.
(** Passing both dictionaries as keyword arguments fails when train_epochs is fixed. *)
Theorem C64_epochs_refuted : exists r fixed best,
  snd (tune ascii_table cf_sample cf_train_epochs true false None (default_tune_range r) fixed 3 []) = Ok best /\
  (forall i d score learnt, cf_train_epochs i d = Scored score learnt -> learns r learnt) /\
  (exists cfg, make_config cf_int cf_float cf_bool (config_of r) fixed = Ok cfg) /\
  dict_merge best fixed = Fail TypeError.
Proof.
  exists BPRFMRecommender, [arg "train_epochs" (VInt 100)]. eexists. split; [reflexivity|]. split; [|split; [eexists; reflexivity|reflexivity]].
  intros i d sc learnt [= _ <-]. exists 15. reflexivity.
Qed.
Print Assumptions C64_epochs_refuted.

(** Names stand for the class registered last under them. *)
Theorem C64_registry : forall (C : Type) program name,
  (forall c, get_recommender_class C program name = Ok c <->
     exists before after, program = before ++ mkClass C name c true :: after /\
       forall s, In s after -> cs_register C s = true -> cs_name C s <> name) /\
  (get_recommender_class C program name = Fail KeyError <-> forall s, In s program -> cs_register C s = true -> cs_name C s <> name).
Proof. exact registry. Qed.
Print Assumptions C64_registry.
Example C64_registry_example :
  let program := [mkClass nat (str "Base") 0%nat true; mkClass nat (str "Mine") 1%nat true; mkClass nat (str "Mine") 2%nat false; mkClass nat (str "Base") 3%nat true] in
  get_recommender_class nat program (str "Mine") = Ok 1%nat /\ get_recommender_class nat program (str "Base") = Ok 3%nat /\
  get_recommender_class nat program (str "Other") = Fail KeyError.
Proof. split; [|split]; reflexivity. Qed.
