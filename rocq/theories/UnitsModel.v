(** Model of [solcore/units_system/units_system.py]. Real numbers are ideal. *)
From Coq Require Import Reals String Ascii List Bool Arith ZArith.
From Verif Require Import Common MatStrModel.
Import ListNotations.
Open Scope R_scope.
Open Scope list_scope.

(** Equality of texts (for [si_loop], units_system.py:97-100). *)
Definition text_eqb (a b : text) : bool := if list_eq_dec ascii_dec a b then true else false.

(** * Regular expressions *)

(** For [is_name_char], units_system.py:46. *)
Definition is_digit (c : ascii) : bool :=
  let n := nat_of_ascii c in ((48 <=? n) && (n <=? 57))%nat.
(** Characters that cannot be part of a unit name: the class
    [^ \+\-\^\.0-9] of [split_units_RE], units_system.py:46. *)
Definition is_name_char (c : ascii) : bool :=
  negb (Ascii.eqb c " " || Ascii.eqb c "+" || Ascii.eqb c "-" || Ascii.eqb c "^" || Ascii.eqb c "."
        || is_digit c)%char.
(** The class [^ \-\+] of the power, units_system.py:46. *)
Definition is_power_char (c : ascii) : bool :=
  negb (Ascii.eqb c " " || Ascii.eqb c "+" || Ascii.eqb c "-")%char.
(** With [is_power_char], units_system.py:46. *)
Definition is_sign (c : ascii) : bool := (Ascii.eqb c "+" || Ascii.eqb c "-")%char.

(** Longest prefix of characters satisfying [p], and the rest (for [findall], units_system.py:46, 96, 118, 150). *)
Fixpoint span (p : ascii -> bool) (s : text) : text * text :=
  match s with
  | c :: s' => if p c then let (a, b) := span p s' in (c :: a, b) else ([], s)
  | [] => ([], [])
  end.

(** One match of the optional part [\^]?([\-\+]?[^ \-\+]* )? after a unit name:
    (power text, rest) (for [findall], units_system.py:46, 96, 118, 150). *)
Definition match_power (s : text) : text * text :=
  let s1 := match s with c :: s' => if Ascii.eqb c "^" then s' else s | [] => [] end in
  match s1 with
  | c :: s2 =>
      if is_sign c then let (p, r) := span is_power_char s2 in (c :: p, r)
      else span is_power_char s1
  | [] => ([], [])
  end.

(** [split_units_RE.findall(unit)], units_system.py:46, 96, 118, 150: characters
    that cannot start a name are skipped.  [fuel] bounds the number of steps; the
    text length is enough (each step consumes at least one character). *)
Fixpoint findall (fuel : nat) (s : text) : list (text * text) :=
  match fuel with
  | O => []
  | S f =>
      match s with
      | [] => []
      | c :: s' =>
          if is_name_char c then
            let (name, r) := span is_name_char s in
            let (p, r') := match_power r in
            (name, p) :: findall f r'
          else findall f s'
      end
  end.
(** With [findall], units_system.py:46, 96, 118, 150. *)
Definition split_units (u : text) : list (text * text) := findall (length u) u.

(** [separate_value_and_unit_RE.match], units_system.py:45, 147: the number, and
    the text after blanks and tabs; None when there is no number. *)
Definition match_exponent (s : text) : text * text :=
  match s with
  | c :: s1 =>
      if (Ascii.eqb c "e" || Ascii.eqb c "E")%char then
        let (sg, s2) := match s1 with
                        | d :: s2 => if is_sign d then ([d], s2) else ([], s1)
                        | [] => ([], s1)
                        end in
        let (ds, r) := span is_digit s2 in
        match ds with [] => ([], s) | _ => (c :: sg ++ ds, r) end
      else ([], s)
  | [] => ([], [])
  end.
(** With [match_exponent], units_system.py:45, 147. *)
Definition match_number (s : text) : option (text * text) :=
  let (sg, s0) := match s with
                  | c :: s' => if is_sign c then ([c], s') else ([], s)
                  | [] => ([], [])
                  end in
  let (d1, r1) := span is_digit s0 in
  let m := match r1 with
           | c :: r2 =>
               if Ascii.eqb c "."%char then
                 let (d2, r3) := span is_digit r2 in
                 match d2 with
                 | [] => match d1 with [] => None | _ => Some (d1, r1) end
                 | _ => Some (d1 ++ c :: d2, r3)
                 end
               else match d1 with [] => None | _ => Some (d1, r1) end
           | [] => match d1 with [] => None | _ => Some (d1, r1) end
           end in
  match m with
  | None => None
  | Some (ds, r) => let (ex, r') := match_exponent r in Some (sg ++ ds ++ ex, r')
  end.
(** With [match_exponent], units_system.py:45, 147. *)
Definition is_blank (c : ascii) : bool := Ascii.eqb c " "%char || Ascii.eqb c (ascii_of_nat 9).
(** With [match_exponent], units_system.py:45, 147. *)
Definition separate (s : text) : option (text * text) :=
  match match_number s with
  | None => None
  | Some (v, r) => Some (v, lstrip is_blank r)
  end.

(** * Conversion table *)

(** [self.siConversions]: name -> factor (units_system.py:47), the last
    assignment wins. *)
Definition table := list (text * R).
(** With [table], units_system.py:47. *)
Fixpoint tget (tb : table) (u : text) : option R :=
  match tb with
  | [] => None
  | (k, v) :: tb' => if text_eqb k u then Some v else tget tb' u
  end.
(** [siConversions[u] = v] and [update]; units_system.py:71, 75 (latest first). *)
Definition tset (tb : table) (u : text) (v : R) : table := (u, v) :: tb.

(** The 17 prefixes with their exponents of 1000, units_system.py:22-23. *)
Definition prefixes : list (text * Z) :=
  [(t "Y", 8%Z); (t "Z", 7%Z); (t "E", 6%Z); (t "P", 5%Z); (t "T", 4%Z); (t "G", 3%Z); (t "M", 2%Z);
   (t "k", 1%Z); (t "", 0%Z); (t "m", (-1)%Z); (t "u", (-2)%Z); (t "n", (-3)%Z); (t "p", (-4)%Z);
   (t "f", (-5)%Z); (t "a", (-6)%Z); (t "z", (-7)%Z); (t "y", (-8)%Z)].
(** [generateConversionDictForSISuffix], units_system.py:21-36: pairs in the
    order of the dictionary; 1000**(-2/3) = 1/100 and 1000**(-1/3) = 1/10. *)
Definition si_suffix (suffix : text) (centi deci : bool) (factor : R) : list (text * R) :=
  map (fun p => (fst p ++ suffix, powerRZ 1000 (snd p) * factor)) prefixes
  ++ (if centi then [(t "c" ++ suffix, / 100 * factor)] else [])
  ++ (if deci then [(t "d" ++ suffix, / 10 * factor)] else []).

(** An entry of a units file, units_system.py:56-76: a unit with the value of its
    expression, or a META_GenerateConversions line with the base unit, the two
    flags and the value of the alternative factor (1 if not given).  The text of
    the file and the evaluation of expressions ([safe_eval]) are not modelled. *)
Inductive uentry :=
| UUnit : text -> R -> uentry
| UMeta : text -> bool -> bool -> R -> uentry.
(** With [uentry], units_system.py:56-76. *)
Definition add_entry (tb : table) (e : uentry) : table :=
  match e with
  | UUnit u v => tset tb u v
  | UMeta s centi deci f => fold_left (fun tb p => tset tb (fst p) (snd p)) (si_suffix s centi deci f) tb
  end.
(** [read], units_system.py:51-76: the table is extended, never cleared. *)
Definition read_units (tb : table) (es : list uentry) : table := fold_left add_entry es tb.

(** * Conversions *)

Section Conv.
(** [float(text)]; units_system.py:98, 120, 149, 152: None stands for ValueError. *)
Context (to_float : text -> option R).

(** [power = float(power) if power != '' else 1]. *)
Definition power_of (p : text) : res R :=
  match p with
  | [] => Ok 1
  | _ => match to_float p with Some x => Ok x | None => Err ValueError end
  end.

(** The loops units_system.py:97-100 (siUnits) and 119-121 (asUnit).  [Rpower] is
    [np.power] for positive factors, the only ones a units file defines. *)
Fixpoint si_loop (tb : table) (v : R) (l : list (text * text)) : res R :=
  match l with
  | [] => Ok v
  | (u, p) :: l' =>
      let! x := power_of p in
      match tget tb u with
      | None => Err KeyError
      | Some f => si_loop tb (v * Rpower f x) l'
      end
  end.
(** With [si_loop], units_system.py:97-100. *)
Fixpoint as_loop (tb : table) (v : R) (l : list (text * text)) : res R :=
  match l with
  | [] => Ok v
  | (u, p) :: l' =>
      let! x := power_of p in
      match tget tb u with
      | None => Err KeyError
      | Some f => as_loop tb (v / Rpower f x) l'
      end
  end.

(** [siUnits], units_system.py:81-102 and [asUnit], 104-123; None passes through. *)
Definition siUnits (tb : table) (v : option R) (u : option text) : res (option R) :=
  match v, u with
  | Some x, Some s => let! y := si_loop tb x (split_units s) in Ok (Some y)
  | _, _ => Ok v
  end.
(** With [siUnits], units_system.py:81-102. *)
Definition asUnit (tb : table) (v : option R) (u : option text) : res (option R) :=
  match v, u with
  | Some x, Some s => let! y := as_loop tb x (split_units s) in Ok (Some y)
  | _, _ => Ok v
  end.
(** [convert], units_system.py:156-171. *)
Definition convert (tb : table) (v : option R) (a b : option text) : res (option R) :=
  let! x := siUnits tb v a in asUnit tb x b.
(** [siUnitFromString], units_system.py:131-154; without a number [match] gives
    None and [.groups()] raises AttributeError. *)
Definition siUnitFromString (tb : table) (s : text) : res R :=
  match separate s with
  | None => Err AttributeError
  | Some (v, u) =>
      match to_float v with
      | None => Err ValueError
      | Some x => si_loop tb x (split_units u)
      end
  end.

(** * Photon conversions; [h] and [c] are the physical constants (constants.py). *)
Context (h c : R).

(** Division by a Python number: zero raises (for [eVnm], units_system.py:173-185). *)
Definition divide (a b : R) : res R := if Req_EM_T b 0 then Err ZeroDivisionError else Ok (a / b).

(** [asUnit] of a plain number with a literal unit (for [eVnm], units_system.py:173-185). *)
Definition as_num (tb : table) (v : R) (u : string) : res R := as_loop tb v (split_units (t u)).
(** For [nmJ], units_system.py:187-199. *)
Definition si_num (tb : table) (v : R) (u : string) : res R := si_loop tb v (split_units (t u)).

(** [eVnm], units_system.py:173-185. *)
Definition eVnm (tb : table) (v : R) : res R :=
  let! a := as_num tb h "eV" in let! b := as_num tb c "nm" in divide (a * b) v.
(** [nmJ], units_system.py:187-199. *)
Definition nmJ (tb : table) (v : R) : res R :=
  let! x := si_num tb v "nm" in divide (h * c) x.
(** [mJ], units_system.py:201-213. *)
Definition mJ (v : R) : res R := divide (h * c) v.
(** [nmHz], units_system.py:215-222. *)
Definition nmHz (tb : table) (v : R) : res R :=
  let! k := as_num tb c "nm s-1" in divide k v.

(** Element-wise application to an array; a zero element gives inf in numpy,
    which is out of scope: an error here (for [spectral_nm_ev], units_system.py:224-263). *)
Fixpoint each (f : R -> res R) (l : list R) : res (list R) :=
  match l with
  | [] => Ok []
  | x :: l' => let! y := f x in let! ys := each f l' in Ok (y :: ys)
  end.
(** [y * K / x_prime ** 2] element-wise (equal lengths, otherwise ValueError). *)
Fixpoint scale (K : R) (ys xs : list R) : res (list R) :=
  match ys, xs with
  | [], [] => Ok []
  | y :: ys', x :: xs' => let! r := scale K ys' xs' in Ok (y * K / x ^ 2 :: r)
  | _, _ => Err ValueError
  end.
(** [spectral_conversion_nm_ev], units_system.py:224-263. *)
Definition spectral_nm_ev (tb : table) (x y : list R) : res (list R * list R) :=
  let! xp := each (eVnm tb) x in
  let! a := as_num tb h "eV s" in let! b := as_num tb c "nm s-1" in
  let! yp := scale (a * b) y xp in Ok (rev xp, rev yp).
(** [spectral_conversion_nm_hz], units_system.py:265-304. *)
Definition spectral_nm_hz (tb : table) (x y : list R) : res (list R * list R) :=
  let! xp := each (nmHz tb) x in
  let! b := as_num tb c "nm s-1" in
  let! yp := scale b y xp in Ok (rev xp, rev yp).

(** * sensibleUnits *)

(** [sensibleUnits], units_system.py:306-333: [d] is [self.dimensions[dimension]]
    (an empty dictionary for an unknown dimension: a defaultdict).  [keys] of a
    dictionary cannot be indexed in Python 3 (line 332: TypeError); [min] of an
    empty list is a ValueError, raised before.  The text of the answer is kept as
    (negative, value, unit). *)
Definition sensibleUnits (d : list text) (v : R) : res (bool * R * text) :=
  let neg := if Rlt_dec v 0 then true else false in
  if Req_EM_T v 0 then Ok (neg, 0, [])
  else match d with
       | [] => Err ValueError
       | _ => Err TypeError
       end.

(** [guess_dimension], units_system.py:346-362: dimensions as pairs of name and
    unit names. *)
Definition guess_dimension (dims : list (text * list text)) (u : text) : res text :=
  match filter (fun d => existsb (text_eqb u) (snd d)) dims with
  | [d] => Ok (fst d)
  | _ => Err AssertionError
  end.
End Conv.

(** [compare_floats], units_system.py:370-397. *)
Definition compare_floats (a b absolute : R) (relative : option R) : res bool :=
  match relative with
  | None => Ok (if Rlt_dec (Rabs (a - b)) absolute then true else false)
  | Some r =>
      let! q := divide (Rmax a b) (Rmin a b) in
      Ok (if Rlt_dec (q - 1) r then true else false)
  end.
