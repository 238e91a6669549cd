(** Model of searching and exporting the refractiveindex.info database:
    absorption_calculator/nk_db.py (N), material_data/refractiveindex_info_DB/dboperations.py (O)
    and dbmaterial.py (D), on the tables of RiiModel. *)
From Coq Require Import Reals Ascii String List Arith Bool.
From Verif Require Import Common GraphModel MatTextModel CppbModel RiiModel.
From Coq Require Import List.
Import ListNotations.
Open Scope R_scope.
Open Scope list_scope.

(** * Search *)
(** LIKE of SQLite, as used in N:66-70 and O:57-59: % stands for any text, _ for any character,
    and the case of letters does not matter. *)
Fixpoint like (p s : string) {struct p} : bool :=
  match p with
  | EmptyString => match s with EmptyString => true | _ => false end
  | String a p' =>
      if Ascii.eqb a "%" then (fix any (s : string) : bool := like p' s || match s with EmptyString => false | String _ r => any r end) s
      else match s with
           | EmptyString => false
           | String b r => (Ascii.eqb a "_" || Ascii.eqb (lower_char a) (lower_char b)) && like p' r
           end
  end.
(** A row of the table of pages (O:317-321, 347-357): identifier, shelf, book, page and filepath;
    the other columns are those of RiiModel. *)
Record named := Named { nm_id : nat; nm_shelf : string; nm_book : string; nm_page : string; nm_path : string }.
(** search_db, N:50-81, and search_pages, O:53-70, which prints the same rows. *)
Definition search_db (pages : list named) (term : string) (exact : bool) : list named :=
  let pattern := if exact then term else ("%" ++ term ++ "%")%string in
  filter (fun p => like pattern (nm_shelf p) || like pattern (nm_book p) || like pattern (nm_page p) || like pattern (nm_path p)) pages.
(** [between ? and ?], O:87, 105, 124; NULL is not between anything. *)
Definition between (x d : R) (v : option R) : bool :=
  match v with
  | Some v => (if Rle_dec (x - d) v then true else false) && (if Rle_dec v (x + d) then true else false)
  | None => false
  end.
(** [join pages p on r.pageid = p.pageid], O:86, 104, 123: the pages of a row. *)
Definition pages_of (t : tables) (r : row) : list page := filter (fun p => Nat.eqb (pg_id p) (fst (fst r))) (t_pages t).
(** search_n, O:80-96, and search_k, O:98-114: identifier, wavelength and value.  (The names of the
    page, also printed, are left out.) *)
Definition search_value (t : tables) (rows : list row) (x d : R) : list row :=
  flat_map (fun r => map (fun _ => r) (pages_of t r)) (filter (fun r => between x d (snd r)) rows).
(** search_nk, O:116-133 *)
Definition search_nk (t : tables) (n dn k dk : R) : list (nat * R * option R * option R) :=
  flat_map (fun r =>
    flat_map (fun e =>
      if Nat.eqb (fst (fst r)) (fst (fst e)) && (if Req_EM_T (snd (fst r)) (snd (fst e)) then true else false)
         && between n dn (snd r) && between k dk (snd e)
      then map (fun _ => (fst r, snd r, snd e)) (pages_of t r) else []) (t_k t)) (t_n t).

(** * Files *)
(** A file: its heading and the numbers of its rows; [None] is the text None (for [write], D:147-151, 177-180). *)
Record sheet := Sheet { s_head : string; s_rows : list (list (option R)) }.
(** Folders and files that exist (for [write], D:147-151, 177-180). *)
Record fs := FS { dirs : list string; files : list (string * sheet) }.
(** The folder of a path; none without separator (for [write], D:147-151, 177-180). *)
Fixpoint dirname (s : string) : option string :=
  match s with
  | EmptyString => None
  | String a r => match dirname r with
                  | Some d => Some (String a d)
                  | None => if Ascii.eqb a "/" then Some EmptyString else None
                  end
  end.
(** open(path, 'w') and writing, D:147-151, 177-180: FileNotFoundError (here RuntimeError) without
    the folder. *)
Definition write (path : string) (f : sheet) (d : fs) : res fs :=
  if match dirname path with None => true | Some p => existsb (String.eqb p) (dirs d) end
  then Ok (FS (dirs d) ((path, f) :: filter (fun e => negb (String.eqb (fst e) path)) (files d)))
  else Err RuntimeError.
(** What a path holds, after D:147-151. *)
Definition read (path : string) (d : fs) : option sheet :=
  match find (fun e => String.eqb (fst e) path) (files d) with Some e => Some (snd e) | None => None end.
(** get_material, O:135-166, with numpy.min of nothing, D:346 and 409: n and k as far as there
    are any. *)
Definition material (t : tables) (id : nat) : res (option (option (list (R * option R)) * option (list (R * option R)))) :=
  match find (fun p => Nat.eqb (pg_id p) id) (t_pages t) with
  | None => Ok None
  | Some _ =>
      match material_n t id, material_k t id with
      | Some [], _ | _, Some [] => Err ValueError
      | n, k => Ok (Some (n, k))
      end
  end.
(** One of the files of to_txt, D:176-192. *)
Definition txt_file (output suffix : string) (data : option (list (R * option R))) (d : fs) : res fs :=
  match data with
  | Some r => write (replace ".txt" suffix output) (Sheet "" (map (fun p => [Some (fst p * / 10 ^ 6); snd p]) r)) d
  | None => Ok d
  end.
(** to_txt, D:171-192.  (What was written before an error is not shown.) *)
Definition to_txt (output : string) (n k : option (list (R * option R))) (d : fs) : res fs :=
  let! d1 := txt_file output "_n.txt" n d in txt_file output "_k.txt" k d1.
(** folder+os.sep+output, O:197-198 and 210-211. *)
Definition in_folder (folder output : string) : string :=
  if String.eqb folder "" then output else (folder ++ "/" ++ output)%string.
(** get_material_txt, O:201-216; [default] is the name of line 209. *)
Definition get_material_txt (t : tables) (default : string) (id : nat) (output folder : string) (d : fs) : res fs :=
  let! m := material t id in
  match m with
  | None => Ok d
  | Some (n, k) =>
      let o := in_folder folder (if String.eqb output "" then default else output) in
      let o := if contains ".txt" o then o else (o ++ ".txt")%string in
      to_txt o n k d
  end.
(** create_nk_txt, N:104-122, with the database [t].  (Simplified: makedirs adds the folder alone.) *)
Definition create_nk_txt (t : tables) (default : string) (id : nat) (file folder : string) (d : fs) : res fs :=
  let d1 := if existsb (String.eqb folder) (dirs d) || String.eqb folder "" then d else FS (folder :: dirs d) (files d) in
  get_material_txt t default id file folder d1.
(** Rows of numbers, D:149-150: the wavelengths of n, n and k. *)
Fixpoint nk_rows (n k : list (R * option R)) : list (list (option R)) :=
  match n, k with
  | x :: n', y :: k' => [Some (fst x); snd x; snd y] :: nk_rows n' k'
  | _, _ => []
  end.
(** One of the files of to_csv with one quantity, D:154-169. *)
Definition csv_file (output suffix head : string) (data : option (list (R * option R))) (d : fs) : res fs :=
  match data with
  | Some r => write (replace ".csv" suffix output) (Sheet head (map (fun p => [Some (fst p); snd p]) r)) d
  | None => Ok d
  end.
(** to_csv, D:141-169 *)
Definition to_csv (output : string) (n k : option (list (R * option R))) (d : fs) : res fs :=
  let one := let! d1 := csv_file output "(n).csv" "wl,n" n d in csv_file output "(k).csv" "wl,k" k d1 in
  match n, k with
  | Some a, Some b =>
      if Nat.eqb (length a) (length b) then write (replace ".csv" "(nk).csv" output) (Sheet "wl,n,k" (nk_rows a b)) d
      else one
  | _, _ => one
  end.
(** get_material_csv, O:188-199; [default] is the name of line 196. *)
Definition get_material_csv (t : tables) (default : string) (id : nat) (output folder : string) (d : fs) : res fs :=
  let! m := material t id in
  match m with
  | None => Ok d
  | Some (n, k) => to_csv (in_folder folder (if String.eqb output "" then default else output)) n k d
  end.
