(** Model of [load_data_from_directory], solcore/material_system/critical_point_interpolate.py:28-46,
    and of what it shares with the picker of critical points: the numbers in names,
    critical_point_picker.py:15, 39-41, and the file saved, 177-200.  In the comments I is the
    former file and P the latter.  Simplified: a file in the format of ConfigParser is the list
    of its sections; names and values with percent signs, line ends or spaces at their ends are
    not told apart. *)
From Coq Require Import Reals Ascii String List Bool Arith DecimalString.
From Verif Require Import Common NumModel TmmModel CritModel PickModel.
From Coq Require Import List.
Import ListNotations.
Open Scope R_scope.
Open Scope list_scope.

(** * The number in a name *)
(** [0-9] of the expression, P:15. *)
Definition is_digit (a : ascii) : bool := (Nat.leb 48 (nat_of_ascii a) && Nat.leb (nat_of_ascii a) 57)%bool.
(** [-+] of the expression, P:15. *)
Definition is_sign (a : ascii) : bool := (Ascii.eqb a "-" || Ascii.eqb a "+")%bool%char.
(** The digits a text begins with, and the rest, P:15. *)
Fixpoint digits (s : string) : string * string :=
  match s with
  | String a r => if is_digit a then let (d, t) := digits r in (String a d, t) else (""%string, s)
  | EmptyString => (""%string, ""%string)
  end.
(** The expression [-+]?[0-9]*\.?[0-9]+ at the beginning of a text, with its backtracking, P:15. *)
Definition match_here (s : string) : option string :=
  let (sign, r) := match s with
                   | String a r => if is_sign a then (String a ""%string, r) else (""%string, s)
                   | EmptyString => (""%string, ""%string)
                   end in
  let (d, t) := digits r in
  let whole := match d with EmptyString => None | _ => Some (sign ++ d)%string end in
  match t with
  | String a u =>
      if Ascii.eqb a "."%char
      then match fst (digits u) with EmptyString => whole | d2 => Some (sign ++ d ++ String a d2)%string end
      else whole
  | EmptyString => whole
  end.
(** guess_fraction, P:39-41: the first match. *)
Fixpoint guess_fraction (s : string) : option string :=
  match match_here s with
  | Some m => Some m
  | None => match s with String _ r => guess_fraction r | EmptyString => None end
  end.

(** * The file *)
(** A section of a file: its name and its options, I:31, 38. *)
Notation conf_file := (list (string * list (string * string))).
(** str of a number, P:197. *)
Definition str_nat (n : nat) : string := NilZero.string_of_uint (Nat.to_uint n).
Section Texts.
(** The text of a float in [format], P:197. *)
Context (show : R -> string).
(** A section saved, P:190-197. *)
Definition section_text (s : section) : string * list (string * string) :=
  (s_name s, ("file"%string, s_file s) ::
     map (fun e => (str_nat (fst e), (show (fst (snd e)) ++ " " ++ show (snd (snd e)))%string)) (s_points s)).
(** The files of a directory that are in this format, P:199-200. *)
Notation directory := (list (string * conf_file)).
(** save, P:179, 188-200, of the picker of PickModel.v. *)
Definition save_to (order : list (string * string)) (p : picker) (dir : directory) : res directory :=
  let! ss := save order p in Ok (store dir "temp_critical_points.txt"%string (map section_text ss)).
End Texts.

(** split(), I:40: the words between spaces; [w] is the word being read. *)
Fixpoint words (w : string) (s : string) : list string :=
  let this := match w with EmptyString => [] | _ => [w] end in
  match s with
  | EmptyString => this
  | String a r =>
      if (Ascii.eqb a " " || Nat.leb 9 (nat_of_ascii a) && Nat.leb (nat_of_ascii a) 13)%bool%char
      then this ++ words ""%string r else words (w ++ String a ""%string)%string r
  end.
Section Load.
(** float() of a text, I:33 and 40, [None] if it raises. *)
Context (float : string -> option R).
(** numpy.loadtxt of a file of the directory, I:44, [None] if it raises. *)
Context {T : Type} (loadtxt : string -> option T).
(** float() with its exception, I:33, 40. *)
Definition to_float (s : string) : res R := match float s with Some x => Ok x | None => Err ValueError end.
(** d[f] = v, I:40, 44. *)
Fixpoint put_f {A} (d : list (R * A)) (f : R) (v : A) : list (R * A) :=
  match d with
  | [] => [(f, v)]
  | (g, w) :: r => if Req_EM_T g f then (g, v) :: r else (g, w) :: put_f r f v
  end.
(** The comprehension I:38-41 *)
Definition points_of (options : list (string * string)) : res (list (string * list R)) :=
  mapRR (fun o => let! l := mapRR to_float (words ""%string (snd o)) in Ok (fst o, l))
    (filter (fun o => negb (String.eqb (fst o) "file")) (fraction_order options)).
(** The loop I:37-44.  Simplified: every exception of loadtxt is a RuntimeError. *)
Fixpoint load_sections (fs : list R) (conf : conf_file) (data : list (R * T)) (cp : list (R * list (string * list R)))
  : res (list (R * T) * list (R * list (string * list R))) :=
  match fs, conf with
  | f :: fs', (_, options) :: conf' =>
      let! p := points_of options in
      match find (fun o => String.eqb (fst o) "file") options with
      | None => Err NoOptionError
      | Some o =>
          match loadtxt (snd o) with
          | None => Err RuntimeError
          | Some t => load_sections fs' conf' (put_f data f t) (put_f cp f p)
          end
      end
  | _, _ => Ok (data, cp)
  end.
(** I:31-46, for the sections read *)
Definition load_conf (conf : conf_file) : res (list (R * T) * list (R * list (string * list R))) :=
  let! fs := mapRR to_float (map fst conf) in load_sections fs conf [] [].
(** load_data_from_directory, I:28-46; [read] passes over a file that is not there (30). *)
Definition load_data_from_directory (dir : list (string * conf_file)) :=
  load_conf (match find (fun e => String.eqb (fst e) "critical_points.txt") dir with Some e => snd e | None => [] end).
End Load.
