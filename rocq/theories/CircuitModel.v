(** Model of the SPICE interface, solcore/spice/spice.py, and of the reader of its output in
    solcore/spice/pv_module_solver.py:119-130.
    [float] of a word is an argument: any partial function. The engine is an arbitrary program. *)
From Coq Require Import Reals String Ascii List Bool Arith.
From Verif Require Import Common TmmModel MatStrModel.
From Coq Require Import List.
Import ListNotations.
Open Scope list_scope.

(** * Text *)
(** The blanks of [str.split()]: blank, \t, \n, \v, \f, \r, the separators 28 to 31, and 133 and 160;
    characters above 255 are not modelled. *)
Definition is_blank (c : ascii) : bool :=
  let n := nat_of_ascii c in
  (n =? 32)%nat || ((9 <=? n)%nat && (n <=? 13)%nat) || ((28 <=? n)%nat && (n <=? 31)%nat) || (n =? 133)%nat || (n =? 160)%nat.
(** [line.split()], spice.py:68 and pv_module_solver.py:126; [cur] is the word begun. *)
Fixpoint words_from (cur : text) (s : text) : list text :=
  match s with
  | [] => match cur with [] => [] | _ => [cur] end
  | c :: s' =>
      if is_blank c then match cur with [] => words_from [] s' | _ => cur :: words_from [] s' end
      else words_from (cur ++ [c]) s'
  end.
(** With [words_from], spice.py:68 and pv_module_solver.py:126. *)
Definition words (s : text) : list text := words_from [] s.
(** With [words_from], spice.py:68 and pv_module_solver.py:126. *)
Definition newline : ascii := ascii_of_nat 10.
(** [split("\n")], spice.py:61 and pv_module_solver.py:122 *)
Definition lines_of (s : text) : list text := split_on newline s.
(** With [lines_of], spice.py:61 and pv_module_solver.py:122. *)
Definition digit (c : ascii) : bool := existsb (Ascii.eqb c) (t "0123456789").
(** [line[0] in "1234567890."], spice.py:64 *)
Definition starts_row (c : ascii) : bool := existsb (Ascii.eqb c) (t "1234567890.").

Section Reader.
(** [float(s)] *)
Context (fl : text -> res R).

(** The loop of spice.py:62-70; a line that is left out gives no row. *)
Fixpoint rows (ls : list text) : res (list (list R)) :=
  match ls with
  | [] => Ok []
  | [] :: r => rows r
  | (c :: l) :: r =>
      if starts_row c then
        let! x := mapRR fl (tl (words (c :: l))) in
        let! rest := rows r in
        Ok (x :: rest)
      else rows r
  end.
(** [numpy.array(data).transpose()], spice.py:72: rows of different lengths make no array (a
    ValueError since numpy 1.24); no rows make an empty array. *)
Definition transposed (d : list (list R)) : res (list (list R)) :=
  match d with
  | [] => Ok []
  | r :: _ =>
      if forallb (fun x => (length x =? length r)%nat) d
      then Ok (map (fun j => map (fun x => nth j x 0%R) d) (seq 0 (length r)))
      else Err ValueError
  end.
(** spice.py:61-72 *)
Definition table_of (raw : text) : res (list (list R)) := let! d := rows (lines_of raw) in transposed d.

(** pv_module_solver.py:124-128 *)
Definition read_pair (l : text) : res (R * R) :=
  match words l with
  | [] => Err IndexError
  | [v] => let! x := fl v in Err IndexError
  | v :: i :: _ => let! x := fl v in let! y := fl i in Ok (x, y)
  end.
(** With [read_pair], pv_module_solver.py:124-128. *)
Fixpoint read_module (ls : list text) : res (list (R * R)) :=
  match ls with
  | [] => Ok []
  | l :: r =>
      match l with
      | _ :: c :: _ :: _ =>
          if digit c then let! p := read_pair l in let! rest := read_module r in Ok (p :: rest)
          else read_module r
      | _ => read_module r
      end
  end.
(** pv_module_solver.py:119-130: [voltage] and [current] *)
Definition module_output (raw : text) : res (list R * list R) :=
  let! ps := read_module (lines_of raw) in Ok (map fst ps, map snd ps).

(** * spice.py:15-88 *)
(** What may be passed as the engine: a path, None, or the class [spice] itself (the default of
    lines 75 and 83). *)
Inductive engine : Type := EPath (p : text) | ENone | EClass.
(** Line 16, evaluated when the module is imported: the environment variable, set or not, and the
    value in the configuration. The same value is the default argument of line 21. *)
Definition import_engine (env : option text) (config : text) : engine :=
  EPath (match env with Some e => e | None => config end).
(** With [import_engine], line 16, line 21. *)
Inductive outcome : Type := Raw (s : text) | Table (d : list (list R)).
(** The engine as a program: from its path and the netlist, the text of the output file (an error
    if the program or its output file does not exist). *)
Context (run : text -> text -> res text).
(** Lines 36-72: the new value of [spice.engine], and the result. [SpiceSolverError] is
    RuntimeError; a class in the arguments of Popen is a TypeError. *)
Definition solve_circuit (contents : text) (e : engine) (raw : bool) : engine * res outcome :=
  (e,
   match e with
   | ENone | EPath [] => Err RuntimeError
   | EClass => Err TypeError
   | EPath p =>
       let! out := run p contents in
       if raw then Ok (Raw out) else let! d := table_of out in Ok (Table d)
   end).
(** Lines 75-88, with their default arguments. *)
Definition get_raw_from_spice (contents : text) (e : option engine) : engine * res outcome :=
  solve_circuit contents (match e with Some e => e | None => EClass end) true.
(** With [get_raw_from_spice], lines 75-88. *)
Definition send_to_spice (contents : text) (e : option engine) : engine * res outcome :=
  solve_circuit contents (match e with Some e => e | None => EClass end) false.

(** A session: the configuration (config_tools.py:197-205) may be changed, circuits are solved. *)
Inductive spice_op : Type := SetSpice (p : text) | Solve (contents : text) (e : option engine) (raw : bool).
(** With [spice_op], config_tools.py:197-205. *)
Record session : Type := Session { se_config : text; se_engine : engine; se_default : engine }.
(** Lines 16 and 21 at import. *)
Definition start (env : option text) (config : text) : session :=
  Session config (import_engine env config) (import_engine env config).
(** With [start], lines 16 and 21. *)
Definition spice_step (s : session) (o : spice_op) : session * option (res outcome) :=
  match o with
  | SetSpice p => (Session p (se_engine s) (se_default s), None)
  | Solve c e raw =>
      let r := solve_circuit c (match e with Some e => e | None => se_default s end) raw in
      (Session (se_config s) (fst r) (se_default s), Some (snd r))
  end.
(** With [start], lines 16 and 21. *)
Definition spice_run (s : session) (h : list spice_op) : session := fold_left (fun s o => fst (spice_step s o)) h s.
End Reader.
