(** Model of the SOPRA library of optical constants (absorption_calculator/sopra_db.py) and
    of the optical functions n, k, alpha, alphaE of the materials built on it
    (material_system/material_system.py:141-215, 287-299, 420-424). *)
From Coq Require Import Reals String Ascii List Bool Arith.
From Coquelicot Require Import Coquelicot.
From Verif Require Import Common InterpModel InterpProps NpModel PhysConst.
From Coq Require Import List.
Import ListNotations.
Open Scope string_scope.
Open Scope R_scope.
Open Scope list_scope.

(** * Names of files *)

(** The characters matched by [\d] (ASCII digits), and their values (for [number], lines 196-198, 284). *)
Definition is_digit (a : ascii) : bool := (48 <=? nat_of_ascii a)%nat && (nat_of_ascii a <=? 57)%nat.
(** For [number], lines 196-198, 284. *)
Definition digit (a : ascii) : nat := nat_of_ascii a - 48.
(** The digits at the beginning of a text: their value (continuing [n]), their number
    (continuing [c]) and what follows (for [number], lines 196-198, 284). *)
Fixpoint digits (n c : nat) (l : list ascii) : nat * nat * list ascii :=
  match l with
  | a :: l' => if is_digit a then digits (10 * n + digit a) (S c) l' else (n, c, l)
  | [] => (n, c, l)
  end.
(** [float] of the text matched by [\d+[\.]?\d*], lines 196-198, 284-286. *)
Definition number (l : list ascii) : R :=
  match digits 0 0 l with
  | (n, _, "."%char :: l') => match digits 0 0 l' with (m, c, _) => INR n + INR m / 10 ^ c end
  | (n, _, _) => INR n
  end.
(** With [number], lines 196-198, 284. *)
Definition starts_with_digit (l : list ascii) : bool := match l with a :: _ => is_digit a | [] => false end.
(** [Num = re.findall("[-+]?\d+[\.]?\d*", files); Num.append("0"); float(Num[0])],
    lines 196-198, 284-286: the leftmost number in the name, 0 if there is none. *)
Fixpoint first_number (l : list ascii) : R :=
  match l with
  | [] => 0
  | a :: l' =>
      if is_digit a then number l
      else if Ascii.eqb a "-" && starts_with_digit l' then - number l'
      else if Ascii.eqb a "+" && starts_with_digit l' then number l'
      else first_number l'
  end.
(** With [first_number], lines 196-198, 284-286. *)
Definition num (s : string) : R := first_number (list_ascii_of_string s).

(** The key by which [natsorted] orders (lines 185, 273; the library's default: unsigned
    integers): the text cut into texts and integers in turn, beginning with a text. *)
Inductive chunk := Txt (s : list ascii) | Num (n : nat).
(** With [chunk], lines 185, 273. *)
Fixpoint key_text (acc l : list ascii) : list chunk :=
  match l with
  | [] => match acc with [] => [] | _ => [Txt (rev acc)] end
  | a :: l' => if is_digit a then Txt (rev acc) :: key_num (digit a) l' else key_text (a :: acc) l'
  end
with key_num (n : nat) (l : list ascii) : list chunk :=
  match l with
  | [] => [Num n]
  | a :: l' => if is_digit a then key_num (10 * n + digit a) l' else Num n :: key_text [a] l'
  end.
(** With [chunk], lines 185, 273. *)
Definition key (s : string) : list chunk := key_text [] (list_ascii_of_string s).
(** Order of texts (by code points), of chunks and of tuples of chunks, as Python compares
    them.  Text and number never meet at the same place of two keys (for [nat_insert], lines 185, 273). *)
Fixpoint text_cmp (a b : list ascii) : comparison :=
  match a, b with
  | [], [] => Eq
  | [], _ => Lt
  | _, [] => Gt
  | x :: a', y :: b' => match Nat.compare (nat_of_ascii x) (nat_of_ascii y) with Eq => text_cmp a' b' | c => c end
  end.
(** For [nat_insert], lines 185, 273. *)
Definition chunk_cmp (a b : chunk) : comparison :=
  match a, b with
  | Txt s, Txt t => text_cmp s t
  | Num m, Num n => Nat.compare m n
  | Txt _, Num _ => Gt
  | Num _, Txt _ => Lt
  end.
(** For [nat_insert], lines 185, 273. *)
Fixpoint key_cmp (a b : list chunk) : comparison :=
  match a, b with
  | [], [] => Eq
  | [], _ => Lt
  | _, [] => Gt
  | x :: a', y :: b' => match chunk_cmp x y with Eq => key_cmp a' b' | c => c end
  end.

(** * Files *)

(** A data file: rows of wavelength (nm), n and k, as read by [genfromtxt] at lines 114,
    140, 200, 288 (the reading itself is not modelled). *)
Definition dtable := list (R * R * R).
(** With [dtable], lines 114, 140, 200, 288. *)
Definition t_wav (t : dtable) : list R := map (fun r => fst (fst r)) t.
(** With [dtable], lines 114, 140, 200, 288. *)
Definition t_n (t : dtable) : list R := map (fun r => snd (fst r)) t.
(** With [dtable], lines 114, 140, 200, 288. *)
Definition t_k (t : dtable) : list R := map snd t.
(** A folder as [os.listdir] gives it, in any order (for [nat_insert], lines 185, 273). *)
Definition folder := list (string * dtable).
(** [natsorted(os.listdir(path))], lines 185, 273: a stable sort. *)
Fixpoint nat_insert (f : string * dtable) (l : folder) : folder :=
  match l with
  | [] => [f]
  | g :: l' => match key_cmp (key (fst f)) (key (fst g)) with Gt => g :: nat_insert f l' | _ => f :: l end
  end.
(** With [nat_insert], lines 185, 273. *)
Definition natsorted (l : folder) : folder := fold_right nat_insert [] l.
(** [".DS_Store" not in files], lines 193, 281. *)
Definition listed (f : string * dtable) : bool :=
  match String.index 0 ".DS_Store" (fst f) with Some _ => false | None => true end.

(** One entry of DATA, lines 187-211 and 275-299: the wavelengths, n, k and the number in
    the name; interpolated if wavelengths are given. *)
Definition entry (Lambda : option (list R)) (f : string * dtable) : list R * list R * list R * R :=
  let t := snd f in
  match Lambda with
  | Some L => (L, map (np_interp (t_wav t) (t_n t)) L, map (np_interp (t_wav t) (t_k t)) L, num (fst f))
  | None => (t_wav t, t_n t, t_k t, num (fst f))
  end.
(** With [entry], lines 187-211 and 275-299. *)
Definition e_wav (e : list R * list R * list R * R) : list R := fst (fst (fst e)).
(** With [entry], lines 187-211 and 275-299. *)
Definition e_n (e : list R * list R * list R * R) : list R := snd (fst (fst e)).
(** With [entry], lines 187-211 and 275-299. *)
Definition e_k (e : list R * list R * list R * R) : list R := snd (fst e).
(** With [entry], lines 187-211 and 275-299. *)
Definition e_num (e : list R * list R * list R * R) : R := snd e.
(** Lines 213-246 and 301-332: at every wavelength of the first file, interpolation of n
    and of k over the numbers of the files.  An empty folder has no minimum (ValueError); a
    file with fewer rows than the first one ends in an IndexError.  The warnings are not
    modelled. *)
Definition interpolate (DATA : list (list R * list R * list R * R)) (v : R) : res (list R * list R * list R) :=
  match DATA with
  | [] => Err ValueError
  | d :: _ =>
      if forallb (fun e => (length (e_wav d) <=? length (e_n e))%nat) DATA then
        Ok (e_wav d,
            map (fun i => np_interp (map e_num DATA) (map (fun e => at_ (e_n e) i) DATA) v) (seq 0 (length (e_wav d))),
            map (fun i => np_interp (map e_num DATA) (map (fun e => at_ (e_k e) i) DATA) v) (seq 0 (length (e_wav d))))
      else Err IndexError
  end.
(** With [interpolate], lines 213-246 and 301-332. *)
Definition load_set (fo : folder) (Lambda : option (list R)) (v : R) : res (list R * list R * list R) :=
  interpolate (map (entry Lambda) (filter listed (natsorted fo))) v.

(** * The library *)

(** [str.upper()] on ASCII text (for [sopra], lines 32-65). *)
Definition upper_char (a : ascii) : ascii :=
  let n := nat_of_ascii a in if ((97 <=? n) && (n <=? 122))%nat then ascii_of_nat (n - 32) else a.
(** For [sopra], lines 32-65. *)
Fixpoint upper (s : string) : string :=
  match s with EmptyString => EmptyString | String a s' => String (upper_char a) (upper s') end.

Section Library.
(** The first column of SOPRA_DB_Updated.csv, the files NAME.MAT and the folders below the
    root of the library, and the sections of compounds.txt with their entry x. *)
Context (db : list string) (file : string -> option dtable) (dir : string -> option folder)
        (compounds : list (string * string)).

(** [sopra_database.__init__], lines 32-65: [re.fullmatch(Material.upper(), fname)] is
    modelled for names without characters special to regular expressions. *)
Definition sopra (name : string) : res string :=
  if existsb (String.eqb (upper name)) db then Ok (upper name) else Err SOPRAError.

(** [load_n], [load_k], lines 99-148: without the file, line 109 (135) asks for an
    attribute [material] that no instance has. *)
Definition load (col : dtable -> list R) (fname : string) (Lambda : option (list R)) : res (list R * list R) :=
  match file fname with
  | None => Err AttributeError
  | Some t => match Lambda with
              | Some L => Ok (L, map (np_interp (t_wav t) (col t)) L)
              | None => Ok (t_wav t, col t)
              end
  end.
(** With [load], lines 99-148, line 109. *)
Definition load_n := load t_n.
(** With [load], lines 99-148, line 109. *)
Definition load_k := load t_k.
(** [load_alpha], lines 150-159. *)
Definition load_alpha (fname : string) (Lambda : option (list R)) : res (list R * list R) :=
  let! r := load_k fname Lambda in
  Ok (fst r, map (fun p => 4 * PI / (fst p * (1 / 10 ^ 9)) * snd p) (combine (fst r) (snd r))).

(** [load_temperature], lines 161-246; the folder is NAME_T. *)
Definition load_temperature (fname : string) (Lambda : option (list R)) (T : R) : res (list R * list R * list R) :=
  match dir (fname ++ "_T")%string with
  | None => Err SystemExit
  | Some fo => load_set fo Lambda (T - 273.19)
  end.
(** [load_composition], lines 248-332: the last keyword counts; without one the name
    [mat_fraction] is not bound (line 262). *)
Definition load_composition (fname : string) (Lambda : option (list R)) (kw : list (string * R)) : res (list R * list R * list R) :=
  match rev kw with
  | [] => Err UnboundLocalError
  | (m, frac) :: _ =>
      match dir (fname ++ "_" ++ upper m)%string with
      | None => Err SystemExit
      | Some fo => load_set fo Lambda frac
      end
  end.

(** * Materials from the library, material_system.py:141-215 *)

(** The variable element, lines 144-147. *)
Definition compound_x (name : string) : option string :=
  match find (fun p => String.eqb name (fst p)) compounds with Some p => Some (snd p) | None => None end.
(** A material: its name, the name found in the library, the element and its fraction (for [sopra_mat], lines 152, 287). *)
Record smat := mkSmat { s_name : string; s_file : string; s_x : option string; s_main : R }.
(** [material(name, sopra=True)(Al=0.3)]: lines 152, 287-297. *)
Definition sopra_mat (name : string) (kw : list (string * R)) : res smat :=
  let! f := sopra name in
  match compound_x name with
  | None => Ok (mkSmat name f None 0)
  | Some e => match find (fun p => String.eqb e (fst p)) kw with
              | Some p => Ok (mkSmat name f (Some e) (snd p))
              | None => Err KeyError
              end
  end.
(** [n_interpolated], [k_interpolated], lines 178-212: without composition the data are
    loaded, with wavelengths in m (lines 166-176; the result of loading is kept by
    [lru_cache] and is the same every time); whatever goes wrong in loading makes the
    answer the constant [dflt] (1 for n, 0 for k).  With composition, the data at the
    fraction in per cent, lines 190-191, 207-208. *)
Definition interpolated (col : dtable -> list R) (proj : list R * list R * list R -> list R) (dflt : R) (m : smat) (x : list R) : res (list R) :=
  match s_x m with
  | None => match load col (s_file m) None with
            | Err _ => Ok (map (fun _ => dflt) x)
            | Ok wy => Ok (map (np_interp (map (fun w => w * (1 / 10 ^ 9)) (fst wy)) (snd wy)) x)
            end
  | Some e => let! r := load_composition (s_file m) (Some (map (fun l => l * 10 ^ 9) x)) [(e, s_main m * 100)] in Ok (proj r)
  end.
(** With [interpolated], lines 178-212, lines 166-176, lines 190-191, 207. *)
Definition mat_n := interpolated t_n (fun r => snd (fst r)) 1.
(** With [interpolated], lines 178-212, lines 166-176, lines 190-191, 207. *)
Definition mat_k := interpolated t_k snd 0.
(** [BaseMaterial.alpha] and [alphaE], lines 420-424, on arrays. *)
Definition mat_alpha (m : smat) (x : list R) : res (list R) :=
  let! k := mat_k m x in Ok (map (fun p => 4 * PI * snd p / fst p) (combine x k)).
(** With [mat_alpha], lines 420-424. *)
Definition mat_alphaE (m : smat) (E : list R) : res (list R) := mat_alpha m (map (fun e => h * c / e) E).
End Library.

(** * Parameterised materials without composition, material_system.py:347-353, 362-405 *)

(** Optical constants in a file of (wavelength in m, value), lines 362-367 and 376-391: a
    material without the file has the constant [dflt]. *)
Definition base_optic (dflt : R) (t : option (list (R * R))) (x : R) : R :=
  match t with None => dflt | Some t => np_interp (map fst t) (map snd t) x end.
(** With [base_optic], lines 362-367 and 376-391. *)
Definition base_n := base_optic 1.
(** With [base_optic], lines 362-367 and 376-391. *)
Definition base_k := base_optic 0.
(** [alpha] and [alphaE], lines 420-424. *)
Definition base_alpha (k : R -> R) (x : R) : R := 4 * PI * k x / x.
(** With [base_alpha], lines 420-424. *)
Definition base_alphaE (k : R -> R) (E : R) : R := base_alpha k (h * c / E).
(** [radiative_recombination] without a tabulated value, lines 350-353; [quad] is the
    integral. *)
Definition radiative (n k : R -> R) (Eg T ni : R) : R :=
  1 / ni ^ 2 * 2 * PI / (h ^ 3 * c ^ 2) *
  RInt (fun E => n E ^ 2 * base_alphaE k E * exp (- E / (kb * T)) * E ^ 2) 0 (Eg + 10 * kb * T).
