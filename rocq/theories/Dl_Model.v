(** Model of the dataset managers' downloads:
      src/irspack/dataset/downloader.py 17-51, 58-62
      src/irspack/dataset/mind.py 62-151
      src/irspack/dataset/neu_mf.py 20-27
      src/irspack/dataset/amazon_music.py 15-30.

    The file system is a map from paths to contents; a call is the list of
    file system operations it issues, one byte written at a time, followed by
    its result.  A process killed after [k] operations has executed the first
    [k] of them.  Simplifications: directories always exist; one process at a
    time; bytes written have reached the file (a killed process, not a power
    failure) unless stated otherwise; print and the text of prompts are left
    out; [zipfile.ZipFile(path)] is [zip_ok] on the contents. *)
From Verif Require Import Base PyStr_Model.
From Coq Require Import String.
From Coq Require Import List.
Local Open Scope Z_scope.

(** A path is a directory and a file name. *)
Definition path : Type := (pystr * pystr)%type.
Definition path_eqb (p q : path) : bool := pystr_eqb (fst p) (fst q) && pystr_eqb (snd p) (snd q).
Definition bytes : Type := list Z.
Definition fs : Type := path -> option bytes.
Definition fs_set (s : fs) (p : path) (c : option bytes) : fs :=
  fun q => if path_eqb q p then c else s q.

Inductive op :=
| Create (p : path)        (* open(p, "wb"): created empty, or emptied *)
| Write (p : path) (b : Z) (* one byte appended to the open file *)
| Rename (p q : path)      (* os.replace: atomic *)
| Unlink (p : path).       (* missing_ok *)
Definition exec (s : fs) (o : op) : fs :=
  match o with
  | Create p => fs_set s p (Some [])
  | Write p b => match s p with Some c => fs_set s p (Some (c ++ [b])) | None => s end
  | Rename p q => match s p with Some c => fs_set (fs_set s p None) q (Some c) | None => s end
  | Unlink p => fs_set s p None
  end.
Definition exec_all (ops : list op) (s : fs) : fs := fold_left exec ops s.

(** What the network does.  [Body b e]: the bytes [b] arrive, then the
    response is over ([Complete]), or the connection is lost, which
    http.client shows to [read(n)] as the end of the file ([Dropped]), or
    reading raises ([Broken]; also a KeyboardInterrupt there). *)
Inductive finish := Complete | Dropped | Broken.
Inductive response := HttpError (code : Z) | NoConnection | Body (b : bytes) (e : finish).

Definition write_all (p : path) (b : bytes) : list op := map (Write p) b.
Definition call : Type := (list op * outcome unit)%type.
Definition then_call (a : call) (b : call) : call :=
  match snd a with Ok _ => (fst a ++ fst b, snd b) | r => (fst a, r) end.

(** ** MIND *)
(** mind.py 130-132: NamedTemporaryFile(dir=path.parent,
    prefix=f".{path.name}."); the suffix is random. *)
Definition temporary (p : path) (suffix : pystr) : path :=
  (fst p, str "."%string ++ snd p ++ str "."%string ++ suffix).
(** 117-151 (the token and the headers are left out). *)
Definition mind_download (p : path) (suffix : pystr) (r : response) : call :=
  let t := temporary p suffix in
  match r with
  | HttpError code =>
      ([], Fail (if (code =? 401) || (code =? 403) || (code =? 409) then RuntimeError else NetworkError))
  | NoConnection => ([], Fail NetworkError)
  | Body b Broken => (Create t :: write_all t b ++ [Unlink t], Fail NetworkError)
  | Body b _ => (Create t :: write_all t b ++ [Rename t p; Unlink t], Ok tt)
  end.

(** 62-114.  [sn_force] is force_download, [sn_yes] whether the prompt would
    be answered "y", [sn_suffix] and [sn_net] what happens to the download of
    each archive, [sn_kill] the number of file system operations after which
    the process is killed (if at all). *)
Record session := mkSession
  { sn_size : pystr; sn_source : pystr; sn_force : bool; sn_yes : bool;
    sn_suffix : path -> pystr; sn_net : path -> response; sn_kill : option nat }.

Definition valid_size (x : pystr) : bool := pystr_eqb x (str "small"%string) || pystr_eqb x (str "large"%string).
Definition valid_source (x : pystr) : bool := pystr_eqb x (str "huggingface"%string) || pystr_eqb x (str "azure"%string).
Definition absent (s : fs) (p : path) : bool := match s p with None => true | Some _ => false end.

(** 91-110. *)
Fixpoint fetch_all (sn : session) (missing : list path) : call :=
  match missing with
  | [] => ([], Ok tt)
  | p :: missing' => then_call (mind_download p (sn_suffix sn p) (sn_net sn p)) (fetch_all sn missing')
  end.
(** 71-110. *)
Definition mind_prepare (s : fs) (paths : list path) (sn : session) : call :=
  if negb (valid_size (sn_size sn)) then ([], Fail ValueError)
  else if negb (valid_source (sn_source sn)) then ([], Fail ValueError)
  else
    match filter (absent s) paths with
    | [] => ([], Ok tt)
    | missing =>
        if sn_force sn || sn_yes sn then fetch_all sn missing else ([], Fail RuntimeError)
    end.

Section Zip.
(** What ZipFile(path) accepts. *)
Variable zip_ok : bytes -> bool.

(** mind.py 114, downloader.py 50. *)
Definition open_zip (s : fs) (p : path) : outcome bytes :=
  match s p with
  | None => Fail FileNotFound
  | Some c => if zip_ok c then Ok c else Fail BadZipFile
  end.
Fixpoint open_all (s : fs) (paths : list path) : outcome (list bytes) :=
  match paths with
  | [] => Ok []
  | p :: ps => obind (open_zip s p) (fun c => omap (cons c) (open_all s ps))
  end.
(** Execute a call, possibly killed in between, then open the archives. *)
Definition finish_call (c : call) (kill : option nat) (paths : list path) (s : fs)
    : fs * outcome (list bytes) :=
  let whole := let s' := exec_all (fst c) s in (s', obind (snd c) (fun _ => open_all s' paths)) in
  match kill with
  | Some k => if (k <? length (fst c))%nat then (exec_all (firstn k (fst c)) s, Pending) else whole
  | None => whole
  end.
Definition mind_start (paths : list path) (s : fs) (sn : session) : fs * outcome (list bytes) :=
  finish_call (mind_prepare s paths sn) (sn_kill sn) paths s.
(** One process after the other. *)
Fixpoint mind_history (paths : list path) (s : fs) (l : list session) : fs * list (outcome (list bytes)) :=
  match l with
  | [] => (s, [])
  | sn :: l' =>
      let '(s', r) := mind_start paths s sn in
      let '(s'', rs) := mind_history paths s' l' in (s'', r :: rs)
  end.

(** ** The managers built on BaseDownloader *)
(** downloader.py 61-62: urlretrieve opens the connection, then the file, and
    raises ContentTooShortError when fewer bytes than announced have come. *)
Definition single_zip_save (p : path) (r : response) : call :=
  match r with
  | HttpError _ | NoConnection => ([], Fail NetworkError)
  | Body b Complete => (Create p :: write_all p b, Ok tt)
  | Body b _ => (Create p :: write_all p b, Fail NetworkError)
  end.

(** NeuMF and Amazon Music put an archive together themselves.  [zip_bytes]
    are the bytes ZipFile writes for the given members, from its opening to
    its close; the close at the end of the [with] block also happens when an
    exception passes through. *)
Variable zip_bytes : list (pystr * bytes) -> bytes.
(** neu_mf.py 20-27: a member is opened for writing before its contents are
    fetched ([read()] of the whole raises on a lost connection). *)
Fixpoint neumf_members (l : list (pystr * response)) : list (pystr * bytes) * outcome unit :=
  match l with
  | [] => ([], Ok tt)
  | (name, Body b Complete) :: l' => let (ms, r) := neumf_members l' in ((name, b) :: ms, r)
  | (name, _) :: _ => ([(name, [])], Fail NetworkError)
  end.
Definition neumf_save (p : path) (train test : response) : call :=
  let (ms, r) := neumf_members [(str "train"%string, train); (str "test"%string, test)] in
  (Create p :: write_all p (zip_bytes ms), r).
(** amazon_music.py 15-30: contents are fetched first; [unpack] is the gzip
    decompression of the second. *)
Variable unpack : bytes -> bytes.
Definition amazon_save (p : path) (ratings meta : response) : call :=
  let file ms := Create p :: write_all p (zip_bytes ms) in
  match ratings with
  | Body b Complete =>
      let m1 := (str "amazon-music/ratings.csv"%string, b) in
      match meta with
      | Body c Complete => (file [m1; (str "amazon-music/music-meta.json"%string, unpack c)], Ok tt)
      | _ => (file [m1], Fail NetworkError)
      end
  | _ => (file [], Fail NetworkError)
  end.

(** downloader.py 17-50. *)
Definition base_start (save : call) (p : path) (force yes : bool) (kill : option nat) (s : fs)
    : fs * outcome (list bytes) :=
  let c := if absent s p then (if force || yes then save else ([], Fail RuntimeError)) else ([], Ok tt) in
  finish_call c kill [p] s.
End Zip.

(** ** Power failure: names are journalled in order, data that was never
    fsync'ed may be cut short.  [s'] may be found after a restart where [s]
    was the last state. *)
Definition after_power_loss (s s' : fs) : Prop :=
  forall p, match s p with
            | None => s' p = None
            | Some c => exists n, s' p = Some (firstn n c)
            end.
