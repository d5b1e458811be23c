(** C44: what is left of an interrupted download. *)
From Coq Require Import String.
From Coq Require Import List.
From Verif Require Import Base PyStr_Model Dl_Model Dl_Spec Dl_Proofs Ex_Dl.
Local Open Scope Z_scope.

(** Whatever sessions come one after the other, each with its transfers
    refused, broken off or complete and each killed after any number of file
    system operations: the archives of the MIND manager are absent or whole, no
    other file (but hidden temporaries) is touched, and a start that returns
    has opened the published archives. *)
Theorem C44_mind_crash : forall full zip_ok paths, Forall visible paths -> forall l s,
  Forall (honest full paths) l -> Forall (intact full s) paths ->
  let '(s', rs) := mind_history zip_ok paths s l in
  Forall (intact full s') paths /\
  (forall q, visible q -> ~ In q paths -> s' q = s q) /\
  (forall q, visible q -> s q <> None -> s' q = s q) /\
  (forall r, In (Ok r) rs -> r = map full paths).
Proof. exact history_ok. Qed.
Print Assumptions C44_mind_crash.

(** And from any such state a session that is not killed and whose transfers
    are complete succeeds. *)
Theorem C44_mind_recovers : forall full zip_ok paths s sn, Forall visible paths ->
  Forall (intact full s) paths ->
  valid_size (sn_size sn) = true -> valid_source (sn_source sn) = true ->
  sn_force sn || sn_yes sn = true -> sn_kill sn = None ->
  (forall p, In p paths -> sn_net sn p = Body (full p) Complete) ->
  (forall p, In p paths -> zip_ok (full p) = true) ->
  snd (mind_start zip_ok paths s sn) = Ok (map full paths).
Proof. exact start_complete. Qed.
Print Assumptions C44_mind_recovers.

(** A session that is not killed leaves no temporary file behind, whatever the
    network does. *)
Theorem C44_mind_no_litter : forall zip_ok paths s sn, Forall visible paths -> sn_kill sn = None ->
  forall q, ~ visible q ->
  fst (mind_start zip_ok paths s sn) q = s q \/ fst (mind_start zip_ok paths s sn) q = None.
Proof. exact start_no_new. Qed.
Print Assumptions C44_mind_no_litter.

(** Refusals do not touch the disk. *)
Theorem C44_mind_refusals : forall zip_ok paths s sn,
  (valid_size (sn_size sn) = false \/ valid_source (sn_source sn) = false ->
     mind_start zip_ok paths s sn = (s, Fail ValueError)) /\
  (valid_size (sn_size sn) = true -> valid_source (sn_source sn) = true ->
     (exists p, In p paths /\ s p = None) -> sn_force sn = false -> sn_yes sn = false ->
     mind_start zip_ok paths s sn = (s, Fail RuntimeError)) /\
  (valid_size (sn_size sn) = true -> valid_source (sn_source sn) = true ->
     (exists p, In p paths /\ s p = None) -> sn_force sn = true ->
     forall code, (forall p, In p paths -> sn_net sn p = HttpError code) ->
     mind_start zip_ok paths s sn =
       (s, Fail (if (code =? 401) || (code =? 403) || (code =? 409) then RuntimeError else NetworkError))).
Proof. exact start_refusals. Qed.
Print Assumptions C44_mind_refusals.

(** The single-zip managers write in place: killed after [k] bytes, the first
    [k] bytes stay where the archive belongs, and no later start fetches the
    archive again. *)
Theorem C44_in_place : forall zip_ok p b s k yes, s p = None -> (k < length b)%nat ->
  let '(s', r) := base_start zip_ok (single_zip_save p (Body b Complete)) p true yes (Some (S k)) s in
  r = Pending /\ s' p = Some (firstn k b) /\
  forall r' force yes',
    base_start zip_ok (single_zip_save p r') p force yes' None s' =
    (s', if zip_ok (firstn k b) then Ok [firstn k b] else Fail BadZipFile).
Proof. exact in_place_crash. Qed.
Print Assumptions C44_in_place.

(** The same after a lost connection, although that session raises. *)
Theorem C44_in_place_broken : forall zip_ok p b e s yes, s p = None -> e <> Complete ->
  let '(s', r) := base_start zip_ok (single_zip_save p (Body b e)) p true yes None s in
  r = Fail NetworkError /\ s' p = Some b.
Proof. exact in_place_broken. Qed.
Print Assumptions C44_in_place_broken.

(** Without interruption they work. *)
Theorem C44_in_place_complete : forall zip_ok p b s yes, s p = None -> zip_ok b = true ->
  let '(s', r) := base_start zip_ok (single_zip_save p (Body b Complete)) p true yes None s in
  r = Ok [b] /\ s' p = Some b /\ (forall q, q <> p -> s' q = s q).
Proof. exact in_place_complete. Qed.
Print Assumptions C44_in_place_complete.

(** NeuMF: when the ratings cannot be fetched, a well-formed archive with an
    empty member stays behind; the next start, whatever the network, opens it
    without complaint. *)
Theorem C44_neumf_leftover : forall zip_ok zip_bytes p train test s yes,
  s p = None -> (forall b, train <> Body b Complete) ->
  let '(s', r) := base_start zip_ok (neumf_save zip_bytes p train test) p true yes None s in
  r = Fail NetworkError /\ s' p = Some (zip_bytes [(str "train"%string, [])]).
Proof. exact neumf_leftover. Qed.
Print Assumptions C44_neumf_leftover.

(** Amazon Music: an archive without members. *)
Theorem C44_amazon_leftover : forall zip_ok zip_bytes unpack p ratings meta s yes,
  s p = None -> (forall b, ratings <> Body b Complete) ->
  let '(s', r) := base_start zip_ok (amazon_save zip_bytes unpack p ratings meta) p true yes None s in
  r = Fail NetworkError /\ s' p = Some (zip_bytes []).
Proof. exact amazon_leftover. Qed.
Print Assumptions C44_amazon_leftover.

(** ** The unrestricted claim fails *)
(** In place: a start after a crash hands out a truncated archive if its bytes
    happen to look like one, and otherwise no start ever succeeds again. *)
Theorem C44_in_place_refuted : exists p b s k,
  s p = None /\ ends_well b = true /\
  let s' := fst (base_start ends_well (single_zip_save p (Body b Complete)) p true false (Some k) s) in
  s' p <> None /\ s' p <> Some b /\
  forall r' force yes',
    snd (base_start ends_well (single_zip_save p r') p force yes' None s') = Fail BadZipFile.
Proof.
  exists train_zip, (published train_zip), empty_disk, 3%nat.
  split; [reflexivity|]. split; [reflexivity|]. split; [vm_compute; discriminate|].
  split; [vm_compute; discriminate|]. intros r' force yes'. vm_compute. reflexivity.
Qed.
Print Assumptions C44_in_place_refuted.

(** NeuMF: the next start returns, with an archive that holds no ratings. *)
Theorem C44_neumf_refuted : exists p train test s,
  s p = None /\
  let s' := fst (base_start ends_well (neumf_save toy_zip p train test) p true false None s) in
  forall force yes, 
    snd (base_start ends_well (neumf_save toy_zip p train test) p force yes None s') =
    Ok [toy_zip [(str "train"%string, [])]].
Proof.
  exists train_zip, NoConnection, (Body [1; 2] Complete), empty_disk.
  split; [reflexivity|]. intros force yes. vm_compute. reflexivity.
Qed.
Print Assumptions C44_neumf_refuted.

(** MIND: a lost connection that reads as the end of the file is taken for the
    end of the archive; it is renamed, and never fetched again. *)
Theorem C44_lost_connection_refuted : exists s sn,
  Forall (intact published s) two_paths /\
  let s' := fst (mind_start ends_well two_paths s sn) in
  s' train_zip = Some [80; 75; 1] /\
  forall sn', valid_size (sn_size sn') = true -> valid_source (sn_source sn') = true ->
    mind_start ends_well two_paths s' sn' = (s', Fail BadZipFile).
Proof.
  exists empty_disk, dropped_session. split.
  - repeat constructor.
  - split; [vm_compute; reflexivity|]. intros sn' Sz So. rewrite start_existing; auto.
    intros p [<-|[<-|[]]]; vm_compute; discriminate.
Qed.
Print Assumptions C44_lost_connection_refuted.

(** MIND: the file is not fsync'ed before the rename, so a power failure after
    a completed start may leave the name with a truncated content. *)
Theorem C44_power_loss_refuted : exists s sn s'',
  honest published two_paths sn /\ Forall (intact published s) two_paths /\
  snd (mind_start ends_well two_paths s sn) = Ok (map published two_paths) /\
  after_power_loss (fst (mind_start ends_well two_paths s sn)) s'' /\
  forall sn', valid_size (sn_size sn') = true -> valid_source (sn_source sn') = true ->
    mind_start ends_well two_paths s'' sn' = (s'', Fail BadZipFile).
Proof.
  exists empty_disk, good_session, (fun p => match fst (mind_start ends_well two_paths empty_disk good_session) p with
                                             | Some c => Some (firstn 2 c) | None => None end).
  split. { intros p [<-|[<-|[]]]; reflexivity. }
  split. { repeat constructor. }
  split. { vm_compute. reflexivity. }
  split.
  - intros p. destruct (fst (mind_start ends_well two_paths empty_disk good_session) p); [now exists 2%nat | reflexivity].
  - intros sn' Sz So. rewrite start_existing; auto. intros p [<-|[<-|[]]]; vm_compute; discriminate.
Qed.
Print Assumptions C44_power_loss_refuted.

(** ** Examples *)
Example mind_crash_example :
  Forall visible two_paths /\ Forall (honest published two_paths) three_sessions /\
  Forall (intact published empty_disk) two_paths /\
  snd (mind_history ends_well two_paths empty_disk three_sessions) =
    [Fail NetworkError; Pending; Ok [[80; 75; 1; 5; 6]; [80; 75; 2; 5; 6]]] /\
  map (fst (mind_history ends_well two_paths empty_disk [broken_session; killed_session])) (two_paths ++ [temporary dev_zip (str "x1"%string)])
    = [Some [80; 75; 1; 5; 6]; None; Some [80; 75]] /\
  fst (mind_history ends_well two_paths empty_disk three_sessions) other_file = Some [42].
Proof.
  split. { repeat constructor; discriminate. }
  split. { repeat constructor; intros p [<-|[<-|[]]]; exact I || reflexivity. }
  split. { repeat constructor. }
  vm_compute. auto.
Qed.
(** Refused. *)
Example mind_refusal_example :
  snd (mind_start ends_well two_paths empty_disk (session_with (fun _ => HttpError 403) None)) = Fail RuntimeError /\
  snd (mind_start ends_well two_paths empty_disk (session_with (fun _ => HttpError 404) None)) = Fail NetworkError /\
  snd (mind_start ends_well two_paths empty_disk
         (mkSession (str "tiny"%string) (str "azure"%string) true true (fun _ => []) good_net None)) = Fail ValueError.
Proof. vm_compute. auto. Qed.
Example in_place_example :
  empty_disk train_zip = None /\ (2 < length (published train_zip))%nat /\
  snd (base_start ends_well (single_zip_save train_zip (Body (published train_zip) Complete)) train_zip true false None empty_disk)
  = Ok [[80; 75; 1; 5; 6]].
Proof. vm_compute. repeat split; auto. Qed.
