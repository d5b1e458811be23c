(** Model of recommender classes and their configurations:
      src/irspack/recommenders/base.py 56-78 (RecommenderConfig, RecommenderMeta),
        107-118 (from_config), 509-521 (get_recommender_class)
      the configuration, constructor signature and tuning range of every
        recommender in src/irspack/recommenders (lines at the entries).

    A configuration class is a pydantic (2.x) model that forbids extra fields:
    values given are converted to the type of their field in pydantic's "lax"
    mode, defaults are taken as they are.  How pydantic reads numbers and truth
    values from strings is a parameter.  Decimal literals stand for themselves;
    integers convert to floats exactly.  NaN, infinities, bytes and feature
    matrices are no values here.  What a constructor does with its bound
    arguments is the parameter [build]. *)
From Coq Require Import String.
From Coq Require Import List.
From Verif Require Import Base PyStr_Model EarlyStop_Model Tune_Model.
From Coq Require Import QArith.
Local Open Scope Z_scope.

Inductive ftype := TInt | TFloat | TBool | TStr | TLit (l : list pystr) | TOpt (t : ftype).
Definition field (name : string) (t : ftype) (d : pyval) : pystr * (ftype * pyval) := (str name, (t, d)).
Definition arg (name : string) (d : pyval) : pystr * pyval := (str name, d).
Definition range (name : string) (d : dist) : pystr * dist := (str name, d).

(** Subclasses of RecommenderConfig (base.py 56-58), in src/irspack/recommenders. *)
Inductive config_class := RecommenderConfig
  | DenseSLIMConfig
  | EDLAEConfig
  | BaseEarlyStoppingRecommenderConfig
  | IALSConfig
  | BaseKNNConfig
  | BaseCosineKNNConfig
  | CosineKNNConfig
  | AsymmetricCosineKNNConfig
  | JaccardKNNConfig
  | TverskyIndexKNNConfig
  | P3alphaConfig
  | RP3betaConfig
  | SLIMConfig
  | TopPopConfig
  | TruncatedSVDConfig
  | NMFConfig
  | MultVAEConfig
  | BPRFMConfig
  | BaseUserKNNConfig
  | CosineUserKNNConfig
  | AsymmetricCosineUserKNNConfig.
Scheme Boolean Equality for config_class.
(** The base class of each. *)
Definition parent (c : config_class) : option config_class :=
  match c with
  | RecommenderConfig => None
  | DenseSLIMConfig => Some RecommenderConfig
  | EDLAEConfig => Some RecommenderConfig
  | BaseEarlyStoppingRecommenderConfig => Some RecommenderConfig
  | IALSConfig => Some BaseEarlyStoppingRecommenderConfig
  | BaseKNNConfig => Some RecommenderConfig
  | BaseCosineKNNConfig => Some BaseKNNConfig
  | CosineKNNConfig => Some BaseCosineKNNConfig
  | AsymmetricCosineKNNConfig => Some BaseCosineKNNConfig
  | JaccardKNNConfig => Some BaseKNNConfig
  | TverskyIndexKNNConfig => Some BaseKNNConfig
  | P3alphaConfig => Some RecommenderConfig
  | RP3betaConfig => Some RecommenderConfig
  | SLIMConfig => Some RecommenderConfig
  | TopPopConfig => Some RecommenderConfig
  | TruncatedSVDConfig => Some RecommenderConfig
  | NMFConfig => Some RecommenderConfig
  | MultVAEConfig => Some BaseEarlyStoppingRecommenderConfig
  | BPRFMConfig => Some BaseEarlyStoppingRecommenderConfig
  | BaseUserKNNConfig => Some RecommenderConfig
  | CosineUserKNNConfig => Some BaseUserKNNConfig
  | AsymmetricCosineUserKNNConfig => Some BaseUserKNNConfig
  end.
(** The fields a class adds or redefines, with types and defaults. *)
Definition own_fields (c : config_class) : list (pystr * (ftype * pyval)) :=
  match c with
  | RecommenderConfig => []
  | DenseSLIMConfig => (* dense_slim.py 11-12 *)
      [field "reg" TFloat (VInt 1)]
  | EDLAEConfig => (* edlae.py 11-13 *)
      [field "reg" TFloat (VFloat 1);
       field "dropout_p" TFloat (VFloat (1 # 10))]
  | BaseEarlyStoppingRecommenderConfig => (* base_earlystop.py 48-49 *)
      [field "train_epochs" TInt (VInt 512)]
  | IALSConfig => (* ials.py 211-229 *)
      [field "n_components" TInt (VInt 20);
       field "alpha0" TFloat (VFloat 1);
       field "reg" TFloat (VFloat (1 # 1000));
       field "nu" TFloat (VFloat 1);
       field "confidence_scaling" TStr (VStr (str "none"));
       field "epsilon" TFloat (VFloat 1);
       field "init_std" TFloat (VFloat (1 # 10));
       field "solver_type" (TLit [str "CG"; str "CHOLESKY"]) (VStr (str "CG"));
       field "max_cg_steps" TInt (VInt 3);
       field "loss_type" (TLit [str "IALSPP"; str "ORIGINAL"]) (VStr (str "IALSPP"));
       field "nu_star" (TOpt TFloat) VNone;
       field "random_seed" TInt (VInt 42);
       field "n_threads" (TOpt TInt) VNone;
       field "train_epochs" TInt (VInt 16);
       field "prediction_time_max_cg_steps" TInt (VInt 5);
       field "lambda_user_feature" TFloat (VFloat 0);
       field "lambda_item_feature" TFloat (VFloat 0);
       field "feature_warmup_epochs" TInt (VInt 0)]
  | BaseKNNConfig => (* knn.py 29-32 *)
      [field "shrinkage" TFloat (VFloat 0);
       field "top_k" TInt (VInt 100);
       field "n_threads" (TOpt TInt) VNone]
  | BaseCosineKNNConfig => (* knn.py 83-86 *)
      [field "feature_weighting" TStr (VStr (str "NONE"));
       field "bm25_k1" TFloat (VFloat (6 # 5));
       field "bm25_b" TFloat (VFloat (3 # 4))]
  | CosineKNNConfig => (* knn.py 89-90 *)
      [field "normalize" TBool (VBool false)]
  | AsymmetricCosineKNNConfig => (* knn.py 164-165 *)
      [field "alpha" TFloat (VFloat (1 # 2))]
  | JaccardKNNConfig => (* knn.py 235-236 *)
      []
  | TverskyIndexKNNConfig => (* knn.py 275-277 *)
      [field "alpha" TFloat (VFloat (1 # 2));
       field "beta" TFloat (VFloat (1 # 2))]
  | P3alphaConfig => (* p3.py 11-15 *)
      [field "alpha" TFloat (VInt 1);
       field "top_k" (TOpt TInt) VNone;
       field "normalize_weight" TBool (VBool false);
       field "n_threads" (TOpt TInt) VNone]
  | RP3betaConfig => (* rp3.py 15-20 *)
      [field "alpha" TFloat (VInt 1);
       field "beta" TFloat (VFloat (3 # 5));
       field "top_k" (TOpt TInt) VNone;
       field "normalize_weight" TBool (VBool false);
       field "n_threads" (TOpt TInt) VNone]
  | SLIMConfig => (* slim.py 10-17 *)
      [field "alpha" TFloat (VFloat (1 # 20));
       field "l1_ratio" TFloat (VFloat (1 # 100));
       field "positive_only" TBool (VBool true);
       field "n_iter" TInt (VInt 100);
       field "tol" TFloat (VFloat (1 # 10000));
       field "top_k" (TOpt TInt) VNone;
       field "n_threads" (TOpt TInt) VNone]
  | TopPopConfig => (* toppop.py 10-11 *)
      []
  | TruncatedSVDConfig => (* truncsvd.py 21-23 *)
      [field "n_components" TInt (VInt 4);
       field "random_seed" TInt (VInt 0)]
  | NMFConfig => (* nmf.py 16-21 *)
      [field "n_components" TInt (VInt 64);
       field "alpha" TFloat (VFloat (1 # 100));
       field "l1_ratio" TFloat (VFloat (1 # 100));
       field "beta_loss" TStr (VStr (str "frobenius"));
       field "init" (TOpt TStr) VNone]
  | MultVAEConfig => (* multvae.py 281-290 *)
      [field "dim_z" TInt (VInt 16);
       field "enc_hidden_dims" TInt (VInt 256);
       field "dec_hidden_dims" (TOpt TInt) VNone;
       field "dropout_p" TFloat (VFloat (1 # 2));
       field "l2_regularizer" TFloat (VInt 0);
       field "kl_anneal_goal" TFloat (VFloat (1 # 5));
       field "anneal_end_epoch" TInt (VInt 50);
       field "minibatch_size" TInt (VInt 512);
       field "learning_rate" TFloat (VFloat (1 # 1000))]
  | BPRFMConfig => (* bpr.py 52-57 *)
      [field "n_components" TInt (VInt 128);
       field "item_alpha" TFloat (VFloat (1 # 1000000000));
       field "user_alpha" TFloat (VFloat (1 # 1000000000));
       field "loss" TStr (VStr (str "bpr"));
       field "n_threads" (TOpt TInt) VNone]
  | BaseUserKNNConfig => (* user_knn.py 22-28 *)
      [field "shrinkage" TFloat (VFloat 0);
       field "top_k" TInt (VInt 100);
       field "n_threads" (TOpt TInt) VNone;
       field "feature_weighting" TStr (VStr (str "NONE"));
       field "bm25_k1" TFloat (VFloat (6 # 5));
       field "bm25_b" TFloat (VFloat (3 # 4))]
  | CosineUserKNNConfig => (* user_knn.py 77-78 *)
      [field "normalize" TBool (VBool true)]
  | AsymmetricCosineUserKNNConfig => (* user_knn.py 151-152 *)
      [field "alpha" TFloat (VFloat (1 # 2))]
  end.

Inductive recommender := DenseSLIMRecommender
  | EDLAERecommender
  | IALSRecommender
  | CosineKNNRecommender
  | AsymmetricCosineKNNRecommender
  | JaccardKNNRecommender
  | TverskyIndexKNNRecommender
  | P3alphaRecommender
  | RP3betaRecommender
  | SLIMRecommender
  | TopPopRecommender
  | TruncatedSVDRecommender
  | NMFRecommender
  | MultVAERecommender
  | BPRFMRecommender
  | CosineUserKNNRecommender
  | AsymmetricCosineUserKNNRecommender.
(** The attribute config_class. *)
Definition config_of (r : recommender) : config_class :=
  match r with
  | DenseSLIMRecommender => DenseSLIMConfig
  | EDLAERecommender => EDLAEConfig
  | IALSRecommender => IALSConfig
  | CosineKNNRecommender => CosineKNNConfig
  | AsymmetricCosineKNNRecommender => AsymmetricCosineKNNConfig
  | JaccardKNNRecommender => JaccardKNNConfig
  | TverskyIndexKNNRecommender => TverskyIndexKNNConfig
  | P3alphaRecommender => P3alphaConfig
  | RP3betaRecommender => RP3betaConfig
  | SLIMRecommender => SLIMConfig
  | TopPopRecommender => TopPopConfig
  | TruncatedSVDRecommender => TruncatedSVDConfig
  | NMFRecommender => NMFConfig
  | MultVAERecommender => MultVAEConfig
  | BPRFMRecommender => BPRFMConfig
  | CosineUserKNNRecommender => CosineUserKNNConfig
  | AsymmetricCosineUserKNNRecommender => AsymmetricCosineUserKNNConfig
  end.
(** Keyword arguments of __init__ and their defaults. *)
Definition constructor (r : recommender) : list (pystr * pyval) :=
  match r with
  | DenseSLIMRecommender => (* dense_slim.py 34 *)
      [arg "reg" (VInt 1)]
  | EDLAERecommender => (* edlae.py 41 *)
      [arg "reg" (VFloat 1); arg "dropout_p" (VFloat (1 # 10))]
  | IALSRecommender => (* ials.py 363 *)
      [arg "n_components" (VInt 20); arg "alpha0" (VFloat 0); arg "reg" (VFloat (1 # 1000));
       arg "nu" (VFloat 1); arg "confidence_scaling" (VStr (str "none")); arg "epsilon" (VFloat 1);
       arg "init_std" (VFloat (1 # 10)); arg "solver_type" (VStr (str "CG")); arg "max_cg_steps" (VInt 3);
       arg "ialspp_subspace_dimension" (VInt 64); arg "loss_type" (VStr (str "IALSPP")); arg "nu_star" VNone;
       arg "random_seed" (VInt 42); arg "n_threads" VNone; arg "train_epochs" (VInt 16);
       arg "prediction_time_max_cg_steps" (VInt 5); arg "prediction_time_ialspp_iteration" (VInt 7);
       arg "user_features" VNone; arg "item_features" VNone; arg "lambda_user_feature" (VFloat 0);
       arg "lambda_item_feature" (VFloat 0); arg "feature_warmup_epochs" (VInt 0)]
  | CosineKNNRecommender => (* knn.py 135 *)
      [arg "shrinkage" (VFloat 0); arg "normalize" (VBool false); arg "top_k" (VInt 100);
       arg "feature_weighting" (VStr (str "NONE")); arg "bm25_k1" (VFloat (6 # 5));
       arg "bm25_b" (VFloat (3 # 4)); arg "n_threads" VNone]
  | AsymmetricCosineKNNRecommender => (* knn.py 207 *)
      [arg "shrinkage" (VFloat 0); arg "alpha" (VFloat (1 # 2)); arg "top_k" (VInt 100);
       arg "feature_weighting" (VStr (str "NONE")); arg "bm25_k1" (VFloat (6 # 5));
       arg "bm25_b" (VFloat (3 # 4)); arg "n_threads" VNone]
  | JaccardKNNRecommender => (* knn.py 262 *)
      [arg "shrinkage" (VFloat 0); arg "top_k" (VInt 100); arg "n_threads" VNone]
  | TverskyIndexKNNRecommender => (* knn.py 310 *)
      [arg "shrinkage" (VFloat 0); arg "alpha" (VFloat (1 # 2)); arg "beta" (VFloat (1 # 2));
       arg "top_k" (VInt 100); arg "n_threads" VNone]
  | P3alphaRecommender => (* p3.py 52 *)
      [arg "alpha" (VInt 1); arg "top_k" VNone; arg "normalize_weight" (VBool false); arg "n_threads" VNone]
  | RP3betaRecommender => (* rp3.py 58 *)
      [arg "alpha" (VInt 1); arg "beta" (VFloat (3 # 5)); arg "top_k" VNone;
       arg "normalize_weight" (VBool false); arg "n_threads" VNone]
  | SLIMRecommender => (* slim.py 58 *)
      [arg "alpha" (VFloat (1 # 20)); arg "l1_ratio" (VFloat (1 # 100)); arg "positive_only" (VBool true);
       arg "n_iter" (VInt 100); arg "tol" (VFloat (1 # 10000)); arg "top_k" VNone; arg "n_threads" VNone]
  | TopPopRecommender => (* toppop.py 28 *)
      []
  | TruncatedSVDRecommender => (* truncsvd.py 48 *)
      [arg "n_components" (VInt 4); arg "random_seed" (VInt 0)]
  | NMFRecommender => (* nmf.py 32 *)
      [arg "n_components" (VInt 64); arg "alpha" (VFloat (1 # 100)); arg "l1_ratio" (VFloat (1 # 100));
       arg "beta_loss" (VStr (str "frobenius")); arg "init" VNone]
  | MultVAERecommender => (* multvae.py 329 *)
      [arg "dim_z" (VInt 16); arg "enc_hidden_dims" (VInt 256); arg "dec_hidden_dims" VNone;
       arg "dropout_p" (VFloat (1 # 2)); arg "l2_regularizer" (VInt 0); arg "kl_anneal_goal" (VFloat (1 # 5));
       arg "anneal_end_epoch" (VInt 50); arg "minibatch_size" (VInt 512); arg "train_epochs" (VInt 300);
       arg "learning_rate" (VFloat (1 # 1000))]
  | BPRFMRecommender => (* bpr.py 107 *)
      [arg "n_components" (VInt 128); arg "item_alpha" (VFloat (1 # 1000000000));
       arg "user_alpha" (VFloat (1 # 1000000000)); arg "loss" (VStr (str "bpr")); arg "n_threads" VNone;
       arg "train_epochs" (VInt 128)]
  | CosineUserKNNRecommender => (* user_knn.py 123 *)
      [arg "shrinkage" (VFloat 0); arg "normalize" (VBool true); arg "top_k" (VInt 100);
       arg "feature_weighting" (VStr (str "NONE")); arg "bm25_k1" (VFloat (6 # 5));
       arg "bm25_b" (VFloat (3 # 4)); arg "n_threads" VNone]
  | AsymmetricCosineUserKNNRecommender => (* user_knn.py 193 *)
      [arg "shrinkage" (VFloat 0); arg "alpha" (VFloat (1 # 2)); arg "top_k" (VInt 100);
       arg "feature_weighting" (VStr (str "NONE")); arg "bm25_k1" (VFloat (6 # 5));
       arg "bm25_b" (VFloat (3 # 4)); arg "n_threads" VNone]
  end.
(** parameter_range.py 99-109 *)
Definition knn : list (pystr * dist) := [range "top_k" (DInt 4 1000 1 false); range "shrinkage" (DFloat 0 1000 false)].
Definition knn_with_weighting : list (pystr * dist) :=
  knn ++ [range "feature_weighting" (DChoice [VStr (str "NONE"); VStr (str "TF_IDF"); VStr (str "BM_25")])].
(** The class attribute default_tune_range, used by default_suggest_parameter (base.py 165-173). *)
Definition default_tune_range (r : recommender) : list (pystr * dist) :=
  match r with
  | DenseSLIMRecommender => (* dense_slim.py 31-31 *)
      [range "reg" (DFloat 1 10000 true)]
  | EDLAERecommender => (* edlae.py 34-37 *)
      [range "reg" (DFloat 1 10000 true); range "dropout_p" (DFloat 0 (99 # 100) false)]
  | IALSRecommender => (* ials.py 357-361 *)
      [range "n_components" (DInt 4 300 1 false); range "alpha0" (DFloat (3 # 1000) 1 true); range "reg" (DFloat (1 # 10000) (1 # 10) true)]
  | CosineKNNRecommender => (* knn.py 131-133 *)
      knn_with_weighting ++ [range "normalize" (DChoice [VBool false; VBool true])]
  | AsymmetricCosineKNNRecommender => (* knn.py 203-205 *)
      knn_with_weighting ++ [range "alpha" (DFloat 0 1 false)]
  | JaccardKNNRecommender => (* knn.py 260-260 *)
      knn
  | TverskyIndexKNNRecommender => (* knn.py 305-308 *)
      knn ++ [range "alpha" (DFloat 0 2 false); range "beta" (DFloat 0 2 false)]
  | P3alphaRecommender => (* p3.py 45-48 *)
      [range "top_k" (DInt 10 1000 1 false); range "normalize_weight" (DChoice [VBool true; VBool false])]
  | RP3betaRecommender => (* rp3.py 52-56 *)
      [range "top_k" (DInt 2 1000 1 false); range "beta" (DFloat (1 # 100000) (1 # 2) true); range "normalize_weight" (DChoice [VBool true; VBool false])]
  | SLIMRecommender => (* slim.py 52-55 *)
      [range "alpha" (DFloat (1 # 100000) 1 true); range "l1_ratio" (DFloat 0 1 false)]
  | TopPopRecommender => (* toppop.py 23-23 *) []
  | TruncatedSVDRecommender => (* truncsvd.py 46-46 *)
      [range "n_components" (DInt 4 512 1 false)]
  | NMFRecommender => (* nmf.py 26-30 *)
      [range "n_components" (DInt 4 512 1 false); range "alpha" (DFloat (1 # 10000000000) (1 # 10) true); range "l1_ratio" (DFloat 0 1 false)]
  | MultVAERecommender => (* multvae.py 323-327 *)
      [range "dim_z" (DChoice [VInt 32; VInt 64; VInt 128; VInt 256]); range "enc_hidden_dims" (DChoice [VInt 128; VInt 256; VInt 512]); range "kl_anneal_goal" (DChoice [VFloat (1 # 10); VFloat (1 # 5); VFloat (2 # 5)])]
  | BPRFMRecommender => (* bpr.py 100-105 *)
      [range "n_components" (DInt 4 256 1 false); range "item_alpha" (DFloat (1 # 1000000000) (1 # 100) true); range "user_alpha" (DFloat (1 # 1000000000) (1 # 100) true); range "loss" (DChoice [VStr (str "bpr"); VStr (str "warp")])]
  | CosineUserKNNRecommender => (* user_knn.py 119-121 *)
      knn_with_weighting ++ [range "normalize" (DChoice [VBool false; VBool true])]
  | AsymmetricCosineUserKNNRecommender => (* user_knn.py 189-191 *)
      knn_with_weighting ++ [range "alpha" (DFloat 0 1 false)]
  end.

(** ** Inheritance *)
(** A class and its base classes; chains have at most four members. *)
Fixpoint mro_fuel (fuel : nat) (c : config_class) : list config_class :=
  match fuel with
  | O => []
  | S f => c :: match parent c with Some p => mro_fuel f p | None => [] end
  end.
Definition mro : config_class -> list config_class := mro_fuel 4.
Definition isinstance_of (c d : config_class) : bool := existsb (config_class_beq d) (mro c).
Fixpoint set_field (l : list (pystr * (ftype * pyval))) (f : pystr * (ftype * pyval)) : list (pystr * (ftype * pyval)) :=
  match l with
  | [] => [f]
  | g :: l => if pystr_eqb (fst g) (fst f) then f :: l else g :: set_field l f
  end.
(** model_fields: those of the base classes first. *)
Definition fields (c : config_class) : list (pystr * (ftype * pyval)) :=
  fold_left (fun l d => fold_left set_field (own_fields d) l) (rev (mro c)) [].

(** ** Configurations *)
Record config := mkConfig { cfg_class : config_class; cfg_values : dict }.
Section Config.
Variable int_of_str : pystr -> option Z.
Variable float_of_str : pystr -> option Q.
Variable bool_of_str : pystr -> option bool.

Definition opt_map {A B} (f : A -> B) (o : option A) : option B := match o with Some a => Some (f a) | None => None end.
(** Validation of one value in lax mode. *)
Fixpoint coerce (t : ftype) (v : pyval) : option pyval :=
  match t with
  | TInt =>
      match v with
      | VInt z => Some (VInt z)
      | VBool b => Some (VInt (if b then 1 else 0))
      | VFloat q => if Zpos (Qden (Qred q)) =? 1 then Some (VInt (Qnum (Qred q))) else None
      | VStr s => opt_map VInt (int_of_str s)
      | VNone => None
      end
  | TFloat =>
      match v with
      | VInt z => Some (VFloat (inject_Z z))
      | VBool b => Some (VFloat (if b then 1 else 0)%Q)
      | VFloat q => Some (VFloat q)
      | VStr s => opt_map VFloat (float_of_str s)
      | VNone => None
      end
  | TBool =>
      match v with
      | VBool b => Some (VBool b)
      | VInt z => if z =? 0 then Some (VBool false) else if z =? 1 then Some (VBool true) else None
      | VFloat q => if Qeq_bool q 0 then Some (VBool false) else if Qeq_bool q 1 then Some (VBool true) else None
      | VStr s => opt_map VBool (bool_of_str s)
      | VNone => None
      end
  | TStr => match v with VStr s => Some (VStr s) | _ => None end
  | TLit l => match v with VStr s => if existsb (pystr_eqb s) l then Some (VStr s) else None | _ => None end
  | TOpt t => match v with VNone => Some VNone | _ => coerce t v end
  end.
(** [c( **kw)]: pydantic's ValidationError is a ValueError. *)
Fixpoint validate (fs : list (pystr * (ftype * pyval))) (kw : dict) : option dict :=
  match fs with
  | [] => Some []
  | (k, (t, d)) :: fs =>
      match match dict_get kw k with Some v => coerce t v | None => Some d end, validate fs kw with
      | Some v, Some r => Some ((k, v) :: r)
      | _, _ => None
      end
  end.
Definition known {A} (l : list (pystr * A)) (k : pystr) : bool := existsb (fun p => pystr_eqb (fst p) k) l.
Definition make_config (c : config_class) (kw : dict) : outcome config :=
  if forallb (fun kv => known (fields c) (fst kv)) kw then
    match validate (fields c) kw with Some v => Ok (mkConfig c v) | None => Fail ValueError end
  else Fail ValueError.

(** ** Constructors *)
(** Binding of keyword arguments; the matrix is passed first. *)
Definition bind_args (params : list (pystr * pyval)) (kw : dict) : outcome dict :=
  if forallb (fun kv => known params (fst kv)) kw then
    Ok (map (fun p => (fst p, match dict_get kw (fst p) with Some v => v | None => snd p end)) params)
  else Fail TypeError.
Variable T : Type.
Variable build : recommender -> dict -> outcome T.
(** [r(X, **kw)] *)
Definition construct (r : recommender) (kw : dict) : outcome T := obind (bind_args (constructor r) kw) (build r).
(** base.py 107-118 *)
Definition from_config (r : recommender) (cfg : config) : outcome T :=
  if isinstance_of (cfg_class cfg) (config_of r) then construct r (cfg_values cfg) else Fail ValueError.
End Config.

(** ** The registry, base.py 61-78 and 509-521: class statements in the order
    they are executed; a later one replaces an earlier one of the same name. *)
Section Registry.
Variable C : Type.
Record class_statement := mkClass { cs_name : pystr; cs_class : C; cs_register : bool }.
Fixpoint reg_set (l : list (pystr * C)) (k : pystr) (c : C) : list (pystr * C) :=
  match l with [] => [(k, c)] | (k', c') :: l => if pystr_eqb k' k then (k', c) :: l else (k', c') :: reg_set l k c end.
Definition run_class (l : list (pystr * C)) (s : class_statement) : list (pystr * C) :=
  if cs_register s then reg_set l (cs_name s) (cs_class s) else l.
Fixpoint reg_get (l : list (pystr * C)) (k : pystr) : outcome C :=
  match l with [] => Fail KeyError | (k', c) :: l => if pystr_eqb k' k then Ok c else reg_get l k end.
Definition get_recommender_class (program : list class_statement) (name : pystr) : outcome C :=
  reg_get (fold_left run_class program []) name.
End Registry.
