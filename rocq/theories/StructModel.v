(** Model of [solcore/structure.py] (Structure, 6-62) and
    [solcore/solar_cell.py] (SolarCell, 20-124). *)
From Coq Require Import Reals String List Bool ZArith.
From Verif Require Import Common.
Import ListNotations.
Open Scope R_scope.
Open Scope list_scope.

(** * Structure *)

(** A label: None or a string (structure.py:12, 18, 36). *)
Definition label := option string.

(** A Structure: the list itself and its [labels] attribute; structure.py:9-12.
    [L] is the type of layers. *)
Record structure (L : Type) := mkStructure { layers : list L; labels : list label }.
Arguments mkStructure {L} _ _.
Arguments layers {L} _.
Arguments labels {L} _.

(** [__init__], structure.py:9-12. *)
Definition structure_init {L} (ls : list L) : structure L :=
  mkStructure ls (repeat None (length ls)).

(** [append], structure.py:14-19; [repeats] is any integer, [range] of a
    negative number is empty. *)
Fixpoint append_loop {L} (n : nat) (s : structure L) (x : L) (lb : label) : structure L :=
  match n with
  | O => s
  | S n' => append_loop n' (mkStructure (layers s ++ [x]) (labels s ++ [lb])) x lb
  end.
(** With [append_loop], structure.py:14-19. *)
Definition append {L} (s : structure L) (x : L) (lb : label) (repeats : Z) : structure L :=
  append_loop (Z.to_nat repeats) s x lb.

(** [append_multiple], structure.py:21-38.  [is_list] is the outcome of the type
    assertion on the first argument. *)
Fixpoint extend_loop {L} (n : nat) (s : structure L) (xs : list L) (lbs : list label) : structure L :=
  match n with
  | O => s
  | S n' => extend_loop n' (mkStructure (layers s ++ xs) (labels s ++ lbs)) xs lbs
  end.
(** With [extend_loop], structure.py:21-38. *)
Definition append_multiple {L} (s : structure L) (is_list : bool) (xs : list L)
    (lbs : option (list label)) (repeats : Z) : structure L * option exn :=
  if negb is_list then (s, Some AssertionError)
  else match lbs with
  | Some l =>
      if Nat.eqb (length xs) (length l)
      then (extend_loop (Z.to_nat repeats) s xs l, None)
      else (s, Some AssertionError)
  | None => (extend_loop (Z.to_nat repeats) s xs (repeat None (length xs)), None)
  end.

(** The two documented ways of growing a structure, structure.py:14-38. *)
Inductive stop (L : Type) :=
| SAppend : L -> label -> Z -> stop L
| SAppendMultiple : bool -> list L -> option (list label) -> Z -> stop L.
Arguments SAppend {L} _ _ _.
Arguments SAppendMultiple {L} _ _ _ _.
(** One of them, structure.py:14-38. *)
Definition st_step {L} (s : structure L) (x : stop L) : structure L :=
  match x with
  | SAppend l lb n => append s l lb n
  | SAppendMultiple b ls lbs n => fst (append_multiple s b ls lbs n)
  end.
(** A sequence of them, structure.py:14-38. *)
Definition st_run {L} (s : structure L) (h : list (stop L)) : structure L := fold_left st_step h s.

(** Methods inherited from [list] that touch the layers and not the labels
    (structure.py:6: the class only overrides append); here [extend] and [pop]. *)
Definition list_extend {L} (s : structure L) (xs : list L) : structure L :=
  mkStructure (layers s ++ xs) (labels s).
(** With [list_extend], structure.py:6. *)
Definition list_pop {L} (s : structure L) : structure L :=
  mkStructure (removelast (layers s)) (labels s).

(** [width], structure.py:49-50. *)
Definition sumR (l : list R) : R := fold_left Rplus l 0.
(** With [sumR], structure.py:49-50. *)
Definition width {L} (w : L -> R) (s : structure L) : R := sumR (map w (layers s)).

(** dict key comparison (for [add_width], structure.py:54-56). *)
Definition label_eqb (a b : label) : bool :=
  match a, b with
  | None, None => true
  | Some x, Some y => String.eqb x y
  | _, _ => false
  end.
(** [aggregate_widths[comment] += w] on a defaultdict(float); structure.py:54-56. *)
Fixpoint add_width (d : list (label * R)) (k : label) (w : R) : list (label * R) :=
  match d with
  | [] => [(k, 0 + w)]
  | (k', v) :: d' => if label_eqb k' k then (k', v + w) :: d' else (k', v) :: add_width d' k w
  end.
(** The first loop of [relative_widths], structure.py:53-57. *)
Fixpoint aggregate {L} (w : L -> R) (pairs : list (L * label)) (d : list (label * R)) (total : R)
  : list (label * R) * R :=
  match pairs with
  | [] => (d, total)
  | (l, lb) :: p => aggregate w p (add_width d lb (w l)) (total + w l)
  end.
(** [relative_widths], structure.py:52-62: dividing by a zero total raises
    ZeroDivisionError when there is something to divide. *)
Definition relative_widths {L} (w : L -> R) (s : structure L) : res (list (label * R)) :=
  let (d, total) := aggregate w (combine (layers s) (labels s)) [] 0 in
  match d with
  | [] => Ok []
  | _ => if Req_EM_T total 0 then Err ZeroDivisionError
         else Ok (map (fun p => (fst p, snd p / total)) d)
  end.

(** * SolarCell *)

(** Python type of an element: exact types are compared (solar_cell.py:67-71). *)
Inductive etype := TLayer | TJunction | TTunnel | TOther.

(** An element of a cell: its exact type and its [R_series] attribute if any
    (solar_cell.py:57). *)
Record element := mkElement { e_type : etype; e_Rs : option R; e_id : nat }.

(** The attributes of a SolarCell that __init__ and append maintain;
    solar_cell.py:41-57. *)
Record cell := mkCell {
  c_struct : structure element;
  c_junctions : nat;
  c_jidx : list nat;
  c_tidx : list nat;
  c_Rs : R
}.

(** [sort_layer_type], solar_cell.py:59-71. *)
Definition sort_layer_type (c : cell) (e : element) (i : nat) : cell :=
  match e_type e with
  | TJunction => mkCell (c_struct c) (S (c_junctions c)) (c_jidx c ++ [i]) (c_tidx c) (c_Rs c)
  | TTunnel => mkCell (c_struct c) (c_junctions c) (c_jidx c) (c_tidx c ++ [i]) (c_Rs c)
  | _ => c
  end.

(** [element.R_series if hasattr(element, 'R_series') else 0], solar_cell.py:57. *)
Definition rs_of (e : element) : R := match e_Rs e with Some r => r | None => 0 end.

(** The loop at the end of [__init__], solar_cell.py:55-57. *)
Fixpoint init_loop (c : cell) (i : nat) (es : list element) : cell :=
  match es with
  | [] => c
  | e :: es' =>
      let c' := sort_layer_type c e i in
      init_loop (mkCell (c_struct c') (c_junctions c') (c_jidx c') (c_tidx c') (c_Rs c' + rs_of e))
                (S i) es'
  end.
(** [__init__], solar_cell.py:24-57; [is_list] is the outcome of the assertion. *)
Definition cell_init (is_list : bool) (es : list element) (R_series : R) : res cell :=
  if is_list then Ok (init_loop (mkCell (structure_init es) 0 [] [] R_series) 0 es)
  else Err AssertionError.

(** [append], solar_cell.py:73-84. *)
Fixpoint cell_append_loop (n : nat) (c : cell) (e : element) (lb : label) : cell :=
  match n with
  | O => c
  | S n' =>
      let c1 := sort_layer_type c e (length (layers (c_struct c))) in
      cell_append_loop n'
        (mkCell (append (c_struct c1) e lb 1) (c_junctions c1) (c_jidx c1) (c_tidx c1) (c_Rs c1)) e lb
  end.
(** With [cell_append_loop], solar_cell.py:73-84. *)
Definition cell_append (c : cell) (e : element) (lb : label) (repeats : Z) : cell :=
  cell_append_loop (Z.to_nat repeats) c e lb.

(** [append_multiple], solar_cell.py:86-107. *)
Fixpoint cell_append_list (c : cell) (es : list element) (lbs : list label) : cell :=
  match es, lbs with
  | e :: es', lb :: lbs' => cell_append_list (cell_append c e lb 1) es' lbs'
  | _, _ => c
  end.
(** With [cell_append_list], solar_cell.py:86-107. *)
Fixpoint cell_append_list_n (n : nat) (c : cell) (es : list element) (lbs : list label) : cell :=
  match n with
  | O => c
  | S n' => cell_append_list_n n' (cell_append_list c es lbs) es lbs
  end.
(** With [cell_append_list], solar_cell.py:86-107. *)
Definition cell_append_multiple (c : cell) (is_list : bool) (es : list element)
    (lbs : option (list label)) (repeats : Z) : cell * option exn :=
  if negb is_list then (c, Some AssertionError)
  else match lbs with
  | Some l =>
      if Nat.eqb (length es) (length l)
      then (cell_append_list_n (Z.to_nat repeats) c es l, None)
      else (c, Some AssertionError)
  | None => (cell_append_list_n (Z.to_nat repeats) c es (repeat None (length es)), None)
  end.

(** Python indexing [l[i]] with a possibly negative integer; used by
    [update_junction] (solar_cell.py:118) and [__call__] (124). *)
Definition py_index {A} (l : list A) (i : Z) : res A :=
  let n := Z.of_nat (length l) in
  let j := (if i <? 0 then i + n else i)%Z in
  if ((0 <=? j) && (j <? n))%Z then
    match nth_error l (Z.to_nat j) with Some x => Ok x | None => Err IndexError end
  else Err IndexError.

(** [__call__], solar_cell.py:123-124. *)
Definition cell_call (c : cell) (i : Z) : res element :=
  let! k := py_index (c_jidx c) i in py_index (layers (c_struct c)) (Z.of_nat k).

(** [update_junction], solar_cell.py:109-121: which element is updated, if any
    (an IndexError is caught and only printed). *)
Definition update_junction_target (c : cell) (i : Z) : option nat :=
  match py_index (c_jidx c) i with
  | Ok k => if Nat.ltb k (length (layers (c_struct c))) then Some k else None
  | Err _ => None
  end.

(** Growing a cell, solar_cell.py:73-107. *)
Definition cell_step (c : cell) (x : stop element) : cell :=
  match x with
  | SAppend e lb n => cell_append c e lb n
  | SAppendMultiple b es lbs n => fst (cell_append_multiple c b es lbs n)
  end.
(** A sequence of these calls, solar_cell.py:73-107. *)
Definition cell_run (c : cell) (h : list (stop element)) : cell := fold_left cell_step h c.
