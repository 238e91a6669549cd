(** Model of the refractiveindex.info database: solcore/material_data/refractiveindex_info_DB
    (dbmaterial.py, dboperations.py), solcore/absorption_calculator/nk_db.py and [nk_material] of
    solcore/material_system/material_system.py:218-272.
    Floats are reals; the result of [numpy.sqrt] of a negative number (nan, stored as NULL) is
    [None]. Bare exceptions and errors of the operating system are RuntimeError. *)
From Coq Require Import Reals String List Arith Bool.
From Verif Require Import Common NpModel DetBalModel TmmModel.
From Coq Require Import List.
Import ListNotations.
Open Scope R_scope.
Open Scope list_scope.

(** * dbmaterial.py:237-334 [FormulaRefractiveIndexData] *)
(** [b ** e] for a base that is not negative; 0.0 ** 0.0 is 1. *)
Definition fpow (b e : R) : R := if Req_EM_T b 0 then (if Req_EM_T e 0 then 1 else 0) else Rpower b e.
(** [numpy.sqrt] (for [formula_value], lines 270-328). *)
Definition np_sqrt (x : R) : option R := if Rlt_dec x 0 then None else Some (sqrt x).
(** [coefficients[i]] (for [formula_value], lines 270-328). *)
Definition coef (c : list R) (i : nat) : res R := match nth_error c i with Some x => Ok x | None => Err IndexError end.
(** The loops [for i in range(1, len(coefficients), 2)] over [coefficients[1:]], lines 276-277,
    282-283, 288-289, 303-304 and 308-309. *)
Fixpoint over_pairs (g : R -> R -> R) (acc : R) (l : list R) : res R :=
  match l with
  | [] => Ok acc
  | [_] => Err IndexError
  | a :: b :: r => over_pairs g (acc + g a b) r
  end.
(** The call [g(wavelength, *coefficients[i:i+4])] of lines 293-295. *)
Definition four (w : R) (l : list R) : res R :=
  match l with
  | [ci; cj; ck; cl] => Ok (ci * fpow w cj / (w ^ 2 - fpow ck cl))
  | _ => Err TypeError
  end.
(** Lines 270-328, [w] in micrometres. Division by zero is outside the model. *)
Definition formula_value (num : nat) (c : list R) (w : R) : res (option R) :=
  match num with
  | 1%nat => (* 273-278 *)
      let! c0 := coef c 0 in
      let! nsq := over_pairs (fun c1 c2 => c1 * w ^ 2 / (w ^ 2 - c2 ^ 2)) (1 + c0) (tl c) in Ok (np_sqrt nsq)
  | 2%nat => (* 279-284 *)
      let! c0 := coef c 0 in
      let! nsq := over_pairs (fun c1 c2 => c1 * w ^ 2 / (w ^ 2 - c2)) (1 + c0) (tl c) in Ok (np_sqrt nsq)
  | 3%nat => (* 285-290 *)
      let! c0 := coef c 0 in
      let! nsq := over_pairs (fun c1 c2 => c1 * fpow w c2) c0 (tl c) in Ok (np_sqrt nsq)
  | 4%nat => (* 291-299 *)
      let! c0 := coef c 0 in
      let! a := four w (firstn 4 (skipn 1 c)) in
      let! b := four w (firstn 4 (skipn 5 c)) in
      let rest := skipn 9 c in
      let poly := fold_left (fun acc kk => acc + nth (9 + kk) c 0 * fpow w (nth (9 + kk + 1) c 0))
                    (seq 0 (length rest / 2)) (c0 + a + b) in
      Ok (np_sqrt poly)
  | 5%nat => (* 300-304 *)
      let! c0 := coef c 0 in
      let! n := over_pairs (fun c1 c2 => c1 * fpow w c2) c0 (tl c) in Ok (Some n)
  | 6%nat => (* 305-309 *)
      let! c0 := coef c 0 in
      let! n := over_pairs (fun c1 c2 => c1 / (c2 - / w ^ 2)) (1 + c0) (tl c) in Ok (Some n)
  | 7%nat => (* 310-315 *)
      let! c0 := coef c 0 in
      let! c1 := coef c 1 in
      let! c2 := coef c 2 in
      let n := c0 + c1 / (w ^ 2 - 28 / 1000) + c2 * (1 / (w ^ 2 - 28 / 1000)) ^ 2 in
      let rest := skipn 3 c in
      Ok (Some (fold_left (fun acc ic => acc + snd ic * w ^ (2 * (fst ic + 1))) (combine (seq 0 (length rest)) rest) n))
  | 8%nat => (* 316-320 *)
      let! c0 := coef c 0 in
      let! c1 := coef c 1 in
      let! c2 := coef c 2 in
      let! c3 := coef c 3 in
      let n := c0 + c1 * w ^ 2 / (w ^ 2 - c2) + c3 * w ^ 2 in
      Ok (np_sqrt (- (2 * n + 1) / (n - 1)))
  | 9%nat => (* 321-326 *)
      let! c0 := coef c 0 in
      let! c1 := coef c 1 in
      let! c2 := coef c 2 in
      let! c3 := coef c 3 in
      let! c4 := coef c 4 in
      let! c5 := coef c 5 in
      Ok (np_sqrt (c0 + c1 / (w ^ 2 - c2) + c3 * (w - c4) / ((w - c4) ^ 2 + c5)))
  | _ => Err RuntimeError
  end.
(** Lines 262-334 [get_refractiveindex]; [wavelength] in nm. *)
Definition formula_index (num : nat) (c : list R) (lo hi wavelength : R) : res (option R) :=
  let w := wavelength / 1000 in
  if Rle_dec lo w then if Rle_dec w hi then formula_value num c w else Err RuntimeError else Err RuntimeError.

(** * dbmaterial.py:10-96 [DBMaterial.__init__] *)
(** The objects of lines 237-334 and 337-379. *)
Inductive index_data : Type :=
| Table : list R -> list R -> index_data
| Form : nat -> list R -> R -> R -> nat -> index_data.
(** The entries of DATA: the second word of the type and the rows already split and converted,
    or the number of the formula, its coefficients and its range (for [load], lines 31-90). *)
Inductive item : Type :=
| Tabulated : string -> list (list R) -> item
| Formula : nat -> list R -> R -> R -> item
| OtherItem : item.
(** For [tabulated_n], lines 340-355. *)
Definition min_of (l : list R) : R := match l with [] => 0 | x :: r => fold_left Rmin r x end.
(** For [tabulated_n], lines 340-355. *)
Definition max_of (l : list R) : R := match l with [] => 0 | x :: r => fold_left Rmax r x end.
(** Lines 34-45: wavelengths, second and third columns. *)
Fixpoint read_rows (rows : list (list R)) : res (list R * list R * list R) :=
  match rows with
  | [] => Ok ([], [], [])
  | [] :: r => read_rows r
  | [_] :: _ => Err IndexError
  | (w :: n :: more) :: r =>
      let! rest := read_rows r in
      Ok (w :: fst (fst rest), n :: snd (fst rest), match more with k :: _ => k :: snd rest | [] => snd rest end)
  end.
(** Lines 340-355; [numpy.min] of nothing and [interp1d] with lists of different lengths are
    ValueErrors. *)
Definition tabulated_n (ws vs : list R) : res index_data :=
  if (length ws =? 0)%nat then Err ValueError
  else if Req_EM_T (min_of ws) (max_of ws) then Ok (Table ws vs)
  else if (length ws =? length vs)%nat then Ok (Table ws vs) else Err ValueError.
(** Lines 402-412. A single row is accepted here; some versions of scipy want two. *)
Definition extinction (ws vs : list R) : res (list R * list R) :=
  if (length ws =? 0)%nat then Err ValueError
  else if (length ws =? length vs)%nat then Ok (ws, vs) else Err ValueError.
(** What the loop of lines 31-90 carries along: the two attributes, [self.points] and the
    formula last read. *)
Record load : Type := Load { ld_n : option index_data; ld_k : option (list R * list R); ld_points : nat;
  ld_formula : option (nat * list R * R * R) }.
(** With [load], lines 31-90. *)
Definition load_item (s : load) (it : item) : res load :=
  match it with
  | OtherItem => Ok s
  | Formula num c lo hi => Ok (Load (Some (Form num c lo hi (ld_points s))) (ld_k s) (ld_points s) (Some (num, c, lo, hi)))
  | Tabulated kind rows =>
      let! cols := read_rows rows in
      let ws := fst (fst cols) in
      let n := snd (fst cols) in
      let pts := length ws in
      if String.eqb kind "n" then
        let! t := tabulated_n ws n in Ok (Load (Some t) (ld_k s) pts (ld_formula s))
      else if String.eqb kind "k" then
        let! e := extinction ws n in
        let n' := match ld_formula s with
                  | Some (num, c, lo, hi) => Some (Form num c lo hi pts)
                  | None => ld_n s
                  end in
        Ok (Load n' (Some e) pts (ld_formula s))
      else if String.eqb kind "nk" then
        let! t := tabulated_n ws n in
        let! e := extinction ws (snd cols) in
        Ok (Load (Some t) (Some e) pts (ld_formula s))
      else Ok (Load (ld_n s) (ld_k s) pts (ld_formula s))
  end.
(** With [load], lines 31-90. *)
Record dbmaterial : Type := DBMat { m_n : option index_data; m_k : option (list R * list R); m_points : nat; m_lo : R; m_hi : R }.
(** With [load], lines 31-90. *)
Fixpoint load_items (s : load) (its : list item) : res load :=
  match its with
  | [] => Ok s
  | i :: r => let! s' := load_item s i in load_items s' r
  end.
(** Lines 91-96 finish: the range; AttributeError if there was no data at all. *)
Definition load_material (points : nat) (its : list item) : res dbmaterial :=
  let! s := load_items (Load None None points None) its in
  match ld_n s, ld_k s with
  | Some (Table ws vs), k => Ok (DBMat (ld_n s) k (ld_points s) (min_of ws) (max_of ws))
  | Some (Form num c lo hi p), k => Ok (DBMat (ld_n s) k (ld_points s) lo hi)
  | None, Some (ws, vs) => Ok (DBMat None (ld_k s) (ld_points s) (min_of ws) (max_of ws))
  | None, None => Err AttributeError
  end.
(** Lines 255-260 and 376-379 [get_complete_refractive]: wavelength in micrometres and index. *)
Definition complete_n (d : index_data) : res (list (R * option R)) :=
  match d with
  | Table ws vs => if (length ws <=? length vs)%nat then Ok (combine ws (map Some vs)) else Err IndexError
  | Form num c lo hi p =>
      mapRR (fun w => let! n := formula_index num c lo hi (w * 1000) in Ok (w, n)) (linspace lo hi p)
  end.
(** Lines 427-430 [get_complete_extinction]. *)
Definition complete_k (e : list R * list R) : list (R * option R) := combine (fst e) (map Some (snd e)).

(** * dboperations.py: the SQLite database *)
(** A row of a table of values: pageid, wave and value (for [insert_entry], lines 332-359, lines 285-300). *)
Definition row : Type := (nat * R * option R)%type.
(** A row of [pages]; the names of shelf, book and page are left out (for [insert_entry], lines 332-359, lines 285-300). *)
Record page : Type := Page { pg_id : nat; pg_n : bool; pg_k : bool }.
(** For [insert_entry], lines 332-359, lines 285-300. *)
Record tables : Type := Tables { t_pages : list page; t_n : list row; t_k : list row }.
(** Lines 332-359: one turn of the loop of [_populate_sqlite_database]; an exception leaves the
    tables as they were, since only the first thing computed can fail. An entry is its identifier
    (lines 285-300 count the pages that are not dividers) and the content of its file, [None] if
    it cannot be read. *)
Definition insert_entry (points : nat) (t : tables) (e : nat * option (list item)) : tables :=
  let id := fst e in
  match snd e with
  | None => t
  | Some its =>
      match load_material points its with
      | Err _ => t
      | Ok m =>
          match (match m_n m with None => Ok None | Some d => let! r := complete_n d in Ok (Some r) end) with
          | Err _ => t
          | Ok rn =>
              let rows_n := match rn with Some r => map (fun p => (id, fst p, snd p)) r | None => [] end in
              let rows_k := match m_k m with Some x => map (fun p => (id, fst p, snd p)) (complete_k x) | None => [] end in
              Tables (t_pages t ++ [Page id (match rn with Some _ => true | None => false end)
                                           (match m_k m with Some _ => true | None => false end)])
                (t_n t ++ rows_n) (t_k t ++ rows_k)
          end
      end
  end.
(** Lines 282-301 and 311-362: the pages are numbered from zero. *)
Definition create_database (points : nat) (files : list (option (list item))) : tables :=
  fold_left (insert_entry points) (combine (seq 0 (length files)) files) (Tables [] [] []).
(** [order by wave asc] of lines 151 and 159. *)
Fixpoint insert_by_wave (p : R * option R) (l : list (R * option R)) : list (R * option R) :=
  match l with
  | [] => [p]
  | x :: r => if Rle_dec (fst p) (fst x) then p :: l else x :: insert_by_wave p r
  end.
(** With [insert_by_wave], lines 151. *)
Definition order_by_wave (l : list (R * option R)) : list (R * option R) := fold_right insert_by_wave [] l.
(** With [insert_by_wave], lines 151. *)
Definition of_page (id : nat) (l : list row) : list (R * option R) :=
  order_by_wave (map (fun r => (snd (fst r), snd r)) (filter (fun r => Nat.eqb (fst (fst r)) id) l)).
(** Lines 135-166 and 168-186: [get_material(pageid)] followed by the complete list of n or k;
    [None] if there is no page or no such data. *)
Definition material_n (t : tables) (id : nat) : option (list (R * option R)) :=
  match find (fun p => Nat.eqb (pg_id p) id) (t_pages t) with
  | Some p => if pg_n p then Some (of_page id (t_n t)) else None
  | None => None
  end.
(** With [material_n], lines 135-166 and 168-186. *)
Definition material_k (t : tables) (id : nat) : option (list (R * option R)) :=
  match find (fun p => Nat.eqb (pg_id p) id) (t_pages t) with
  | Some p => if pg_k p then Some (of_page id (t_k t)) else None
  | None => None
  end.

(** * The files, nk_db.py *)
(** Whether "nk" is in the user configuration, whether the default folder exists, and the file:
    absent, without tables (as [sqlite3.connect] leaves it) or a database. One location is
    modelled: the configured path and the default are the same. *)
Inductive file : Type := NoFile | EmptyFile | DbFile : tables -> file.
(** For [nkdb_load], nk_db.py:84-101. *)
Record disk : Type := Disk { k_nk : bool; k_folder : bool; k_file : file }.
(** nk_db.py:14-47 [download_db]. [answer] is what the user types at line 33, [reply] the answer of
    the server: [None] if it is not ok - in which case [create_sqlite_database] has already
    replaced the tables when reading the catalogue fails (dboperations.py:32-36, 264-280, 311-329). *)
Definition in_Yy (s : string) : bool :=
  String.eqb s "Y" || String.eqb s "y" || String.eqb s "Yy" || String.eqb s "".
(** With [in_Yy], nk_db.py:14-47, line 33, dboperations.py:32-36, 264-280, 311-329. *)
Definition download_db (points : nat) (confirm : bool) (answer : string) (reply : option (list (option (list item)))) (d : disk)
  : disk * res unit :=
  let start :=
    if k_nk d then (d, true)
    else match k_file d with
         | NoFile => if k_folder d then (d, false) else (Disk true true NoFile, true)
         | f => (Disk true (k_folder d) f, true)
         end in
  if snd start then
    let d1 := fst start in
    let go := match k_file d1 with
              | NoFile => confirm
              | _ => if confirm then true else in_Yy answer
              end in
    if go then
      match reply with
      | Some files => (Disk (k_nk d1) (k_folder d1) (DbFile (create_database points files)), Ok tt)
      | None => (Disk (k_nk d1) (k_folder d1) (DbFile (Tables [] [] [])), Err RuntimeError)
      end
    else (d1, Ok tt)
  else (d, Err RuntimeError).
(** nk_db.py:84-101 [nkdb_load_n], [nkdb_load_k]: indexing [None] is a TypeError; connecting to a
    file that is not there creates it, a missing table is an error, and a page without rows is a
    ValueError of [numpy.min]. The pageid is the name of
    the material, converted with [int]. *)
Definition nkdb_load (which : tables -> nat -> option (list (R * option R))) (d : disk) (id : nat)
  : disk * res (list (R * option R)) :=
  if k_nk d then
    match k_file d with
    | NoFile => (Disk (k_nk d) (k_folder d) EmptyFile, Err RuntimeError)
    | EmptyFile => (d, Err RuntimeError)
    | DbFile t => (d, match which t id with Some [] => Err ValueError | Some l => Ok l | None => Err TypeError end)
    end
  else (d, Err KeyError).
(** material_system.py:234-253 and 255-272: [n_interpolated] and [k_interpolated] of one
    wavelength in metres, on a new material object. A nan in the data makes [np.interp] refuse
    the array of objects. The method keeps the first result for every instance of the class
    ([lru_cache]); a second instance is outside the model. *)
Definition values (l : list (R * option R)) : option (list R) :=
  fold_right (fun p acc => match snd p, acc with Some v, Some r => Some (v :: r) | _, _ => None end) (Some []) l.
(** With [values], material_system.py:234-253 and 255-272. *)
Definition nk_interpolated (default : R) (which : tables -> nat -> option (list (R * option R))) (d : disk) (id : nat) (x : R)
  : res R :=
  match snd (nkdb_load which d id) with
  | Err _ => Ok default
  | Ok l => match values l with
            | Some v => Ok (np_interp (map (fun p => fst p * / 10 ^ 6) l) v x)
            | None => Err TypeError
            end
  end.
(** With [values], material_system.py:234-253 and 255-272. *)
Definition nk_n (d : disk) (id : nat) (x : R) : res R := nk_interpolated 1 material_n d id x.
(** With [values], material_system.py:234-253 and 255-272. *)
Definition nk_k (d : disk) (id : nat) (x : R) : res R := nk_interpolated 0 material_k d id x.
