(** C65: reading CiteULike and MovieLens files. *)
From Verif Require Import Base PyStr_Model PyStr_Spec Mind_Model Mind_Spec Reader_Model Reader_Spec Reader_Proofs Ex_Reader.
From Coq Require Import String.
From Coq Require Import List.
Local Open Scope Z_scope.

(** ** CiteULike *)
(** A file is accepted exactly if every line declares the number of items that
    follow; then user k has the items of line k, in their order. *)
Theorem C65_citeulike : forall max_digits file rows,
  cite_read max_digits file = Ok rows <->
  exists ls users, file_lines file ls /\ length users = length ls /\ rows = rows_from 0 users /\
    forall k l, nth_error ls k = Some l ->
    exists items, nth_error users k = Some items /\ stands_for max_digits ls k l items.
Proof. exact cite_read_iff. Qed.
Print Assumptions C65_citeulike.
Theorem C65_citeulike_errors : forall max_digits file,
  (exists rows, cite_read max_digits file = Ok rows) \/
  cite_read max_digits file = Fail ValueError \/ cite_read max_digits file = Fail AssertionError \/
  (cite_read max_digits file = Fail UnboundLocal /\ exists l ls, file_lines file (l :: ls) /\ blank_line l).
Proof. exact cite_read_error. Qed.
Print Assumptions C65_citeulike_errors.
Theorem C65_citeulike_written : forall max_digits users ls,
  Forall2 (written max_digits) users ls -> cite_read max_digits (concat ls) = Ok (rows_from 0 users).
Proof. exact cite_roundtrip. Qed.
Print Assumptions C65_citeulike_written.
(** A line without a declared number is not always refused: after a user
    without items it is one more user. *)
Theorem C65_blank_refuted : exists file rows l ls l' ls',
  cite_read 4300 file = Ok rows /\ file_lines file (l :: l' :: ls) /\ ls = [ls'] /\
  blank_line l' /\ rows = [(2, 5)].
Proof.
  exists blank_file, [(2, 5)], (nl "0"%string), [nl "1 5"%string], [10], (nl "1 5"%string).
  split; [vm_compute; reflexivity|]. split; [apply file_lines_iff; vm_compute; reflexivity|].
  split; [reflexivity | split; [now repeat constructor | reflexivity]].
Qed.
Print Assumptions C65_blank_refuted.
Example citeulike_example :
  Forall2 (written 4300) users_table users_file /\
  cite_read 4300 (concat users_file) = Ok [(0, 7); (0, 11); (2, 3)] /\
  cite_read 4300 (nl "2 7"%string) = Fail AssertionError /\ cite_read 4300 (nl "1 x"%string) = Fail ValueError /\
  cite_read 4300 (nl ""%string) = Fail UnboundLocal /\ cite_read 4300 (nl "1 5"%string ++ [10]) = Fail AssertionError.
Proof.
  split; [|vm_compute; auto 6]. unfold users_table, users_file.
  assert (D : forall w, forallb (fun c => (48 <=? c) && (c <=? 57)) w = true -> w <> [] -> ascii_number w).
  { intros w F N. split; [exact N|]. apply Forall_forall. intros c I. rewrite forallb_forall in F. specialize (F c I).
    apply andb_true_iff in F. rewrite !Z.leb_le in F. lia. }
  repeat (apply Forall2_cons || apply Forall2_nil);
    [exists (s "2"%string), [s "7"%string; s "11"%string] | exists (s "0"%string), [] | exists (s "1"%string), [s "3"%string]];
    (split; [split; [apply D; [reflexivity | discriminate] | reflexivity]|]);
    (split; [repeat (apply Forall2_cons || apply Forall2_nil); (split; [apply D; [reflexivity | discriminate] | reflexivity])|]);
    (split; [repeat (apply Forall_cons || apply Forall_nil); vm_compute; lia | reflexivity]).
Qed.

(** ** MovieLens 1M *)
(** The table that is read: the colon-separated fields 0, 2, 4 and 6 of every
    line, if the first line has seven fields and no line has more than it. *)
Theorem C65_ratings : forall is_na file rows, read_ratings is_na file = Ok rows <->
  exists cs first fss, table_lines file cs /\ Forall2 fields cs (first :: fss) /\ (7 <= length first)%nat /\
    Forall (fun fs => (length fs <= length first)%nat) fss /\
    Forall2 (rating_columns is_na) (first :: fss) rows.
Proof. exact ratings_iff. Qed.
Print Assumptions C65_ratings.
(** Files of "user::movie::rating::timestamp" are read as they are written. *)
Theorem C65_ratings_written : forall is_na e es, good_rating is_na e -> Forall (good_rating is_na) es ->
  read_ratings is_na (flat_map line_of_rating (e :: es)) = Ok (map row_of_rating (e :: es)).
Proof. exact ratings_roundtrip. Qed.
Print Assumptions C65_ratings_written.
(** Malformed files are not always refused: the separators may be anything
    with two colons, and a line that breaks off gives a row with gaps. *)
Theorem C65_malformed_refuted : exists first second,
  (~ exists a b, first = a ++ [58; 58] ++ b) /\ (~ exists u m r t, second = rating_line u m r t) /\
  read_ratings not_na (first ++ second) =
    Ok [(Some (s "1"), Some (s "2"), Some (s "3"), Some (s "4")); (Some (s "5"), Some (s "6"), None, None)]%string.
Proof.
  exists (nl "1:a:2:b:3:c:4"%string), (nl "5::6"%string). split; [|split; [|vm_compute; reflexivity]].
  - intros (a & b & E). vm_compute in E. repeat (destruct a as [|? a]; [discriminate|]; injection E as _ E; try discriminate).
    destruct a; discriminate.
  - intros (u & m & r & t & E). apply (f_equal (fun x => count_occ Z.eq_dec x 58)) in E. unfold rating_line in E.
    rewrite !count_occ_app in E. change (count_occ Z.eq_dec (nl "5::6"%string) 58) with 2%nat in E.
    change (count_occ Z.eq_dec [58; 58] 58) with 2%nat in E. lia.
Qed.
Print Assumptions C65_malformed_refuted.
Example ratings_example :
  Forall (good_rating not_na) two_ratings /\
  read_ratings not_na (nl "1::1193::5::978300760"%string ++ nl "1::661::3::978302109"%string) = Ok (map row_of_rating two_ratings) /\
  read_ratings not_na (nl "1::1193::5"%string) = Fail KeyError /\ read_ratings not_na [] = Fail ValueError.
Proof.
  split; [|vm_compute; auto]. unfold two_ratings.
  assert (P : forall x, forallb (fun c => (48 <=? c) && (c <=? 57)) x = true -> x <> [] -> plain_field not_na x).
  { intros x F N. split; [exact N | split; [reflexivity|]]. intros c I J. rewrite forallb_forall in F. specialize (F c I).
    apply andb_true_iff in F. rewrite !Z.leb_le in F. cbn in J. intuition lia. }
  repeat (apply Forall_cons || apply Forall_nil); repeat split; try discriminate; apply P; reflexivity || discriminate.
Qed.
(** The release year is the number in parentheses at the end of the title. *)
Theorem C65_year : forall title n, release_year title = Some n <-> exists d, ends_with_year title d /\ n = value d.
Proof. exact release_year_iff. Qed.
Print Assumptions C65_year.
Example year_example :
  release_year (s "Toy Story (1995)"%string) = Some 1995 /\ release_year (s "(500) Days (of) Summer (2009) "%string) = Some 2009 /\
  release_year (s "Land Before Time (1988) VII"%string) = None /\ release_year (s "Untitled ()"%string) = None /\
  ends_with_year (s "Toy Story (1995)"%string) (s "1995"%string).
Proof.
  repeat (split; [vm_compute; reflexivity|]). exists (s "Toy Story "%string), []. split; [reflexivity|].
  split; [vm_compute; intuition discriminate|]. split; [|constructor].
  split; [discriminate|]. vm_compute. repeat (apply Forall_cons || apply Forall_nil); split; discriminate.
Qed.

(** ** MovieLens 100K *)
Theorem C65_genre_names : forall file names, read_genre file = names <->
  exists ws, tokens latin_space file ws /\ Forall2 unnumbered ws names.
Proof. exact read_genre_iff. Qed.
Print Assumptions C65_genre_names.
Theorem C65_genre_written : forall l, Forall (fun p => genre_name (fst p) /\ ascii_number (snd p)) l ->
  read_genre (flat_map (fun p => genre_line (fst p) (snd p)) l) = map fst l.
Proof. exact genre_roundtrip. Qed.
Print Assumptions C65_genre_written.
(** A genre of two words is read as two genres. *)
Theorem C65_two_words_refuted : exists name number, name <> [] /\ ascii_number number /\
  read_genre (genre_line name number) = [s "Film"; s "Noir"]%string /\ name = s "Film Noir"%string.
Proof.
  exists (s "Film Noir"%string), (s "10"%string). split; [discriminate|]. split; [|split; [vm_compute; reflexivity | reflexivity]].
  split; [discriminate|]. vm_compute. repeat (apply Forall_cons || apply Forall_nil); split; discriminate.
Qed.
Print Assumptions C65_two_words_refuted.
Example genre_example :
  Forall (fun p => genre_name (fst p) /\ ascii_number (snd p)) genre_table /\
  read_genre (nl "unknown|0"%string ++ nl "Action|1"%string ++ nl "Film-Noir|10"%string ++ [10]) =
  [s "unknown"; s "Action"; s "Film-Noir"]%string.
Proof.
  split; [|vm_compute; reflexivity]. unfold genre_table.
  repeat (apply Forall_cons || apply Forall_nil); cbn [fst snd];
    (split; [split; [discriminate | vm_compute; repeat (apply Forall_cons || apply Forall_nil); reflexivity]
            | split; [discriminate | vm_compute; repeat (apply Forall_cons || apply Forall_nil); split; discriminate]]).
Qed.
(** Every movie is listed with the genres whose flag is not zero, and the
    other columns are passed on. *)
Theorem C65_items : forall width rows genres, width = (5 + length genres)%nat -> NoDup genres ->
  Forall (fun r => length (it_flags r) = length genres) rows ->
  exists outs, Forall2 (fun r out => marked genres (it_flags r) out) rows outs /\
    read_item_info width rows genres =
      Ok (map (fun r => (it_id r, it_info r)) rows, concat (map (fun p => map (pair (it_id (fst p))) (snd p)) (combine rows outs))).
Proof. exact item_info_ok. Qed.
Print Assumptions C65_items.
Theorem C65_items_width : forall width rows genres, width <> (5 + length genres)%nat ->
  read_item_info width rows genres = Fail ValueError.
Proof. exact item_info_width. Qed.
Print Assumptions C65_items_width.
(** An empty flag counts as set; a genre named twice is an IndexError. *)
Theorem C65_empty_flag_refuted : exists r, it_flags r = [None; Some 0] /\
  read_item_info 7 [r] [s "unknown"; s "Action"]%string = Ok ([(1, [])], [(1, s "unknown"%string)]).
Proof. exists (mkItem 1 [] [None; Some 0]). split; [reflexivity | vm_compute; reflexivity]. Qed.
Print Assumptions C65_empty_flag_refuted.
Theorem C65_duplicate_refuted : exists rows genres, Forall (fun r => length (it_flags r) = length genres) rows /\
  read_item_info (5 + length genres) rows genres = Fail IndexError.
Proof.
  exists [mkItem 1 [] [Some 1; Some 0]], [s "Action"; s "Action"]%string. split; [repeat constructor | vm_compute; reflexivity].
Qed.
Print Assumptions C65_duplicate_refuted.
Example items_example :
  NoDup (map fst genre_table) /\ Forall (fun r => length (it_flags r) = length (map fst genre_table)) two_items /\
  omap snd (read_item_info 8 two_items (map fst genre_table)) = Ok [(7, s "Action"); (7, s "Film-Noir"); (3, s "Action")]%string.
Proof.
  split; [repeat constructor; vm_compute; intuition discriminate|]. split; [repeat constructor | vm_compute; reflexivity].
Qed.
