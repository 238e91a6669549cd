(** Model of turning devices of the drift-diffusion solver back into structures:
    solcore/structure.py:156-216 (S) and
    solcore/poisson_drift_diffusion/DeviceStructure.py:79-108, 132-277 (D). *)
From Coq Require Import Reals Ascii String List Arith Bool.
From Verif Require Import Common PhysConst NpModel.
From Coq Require Import List.
Import ListNotations.
Open Scope R_scope.
Open Scope list_scope.

(** * Devices *)
(** The composition of a layer, S:134-153: material, element and fraction. *)
Record comp := Comp { c_material : string; c_element : option (string * R) }.
(** The properties of a layer that D:211-220 change (others stay as they are): gap, affinity,
    mass of electrons, Nc, Nv, ni; and the absorption, if calculated. *)
Record props := Props { p_gap : R; p_aff : R; p_me : R; p_Nc : R; p_Nv : R; p_ni : R; p_abs : option (list R * list R) }.
(** A layer of a device, D:87-94: label, composition, width and properties. *)
Record dlayer := DLayer { dl_label : option string; dl_comp : comp; dl_width : R; dl_props : props }.
(** A device, D:60-72: what S:204-214 read. *)
Record device := Device { d_T : R; d_num : nat; d_layers : list dlayer; d_substrate : comp }.
(** AddLayers, D:79-97, with the properties already read. *)
Definition add_layers (d : device) (l : list dlayer) : device :=
  fold_left (fun d x => Device (d_T d) (d_num d + 1) (d_layers d ++ [x]) (d_substrate d)) l d.
(** RemoveLayer, D:100-108, for an index that is not negative. *)
Definition remove_layer (d : device) (i : nat) : res device :=
  if Nat.ltb i (length (d_layers d))
  then Ok (Device (d_T d) (d_num d - 1) (firstn i (d_layers d) ++ skipn (S i) (d_layers d)) (d_substrate d))
  else Err IndexError.
(** What is done with a device (for [to_layers], S:207-211). *)
Inductive op := AddL (l : list dlayer) | RemoveL (i : nat).
(** A sequence of these; an error leaves the device as it is (by [add_layers], D:79-97, [remove_layer], D:100-108). *)
Fixpoint run (d : device) (ops : list op) : device :=
  match ops with
  | [] => d
  | AddL l :: r => run (add_layers d l) r
  | RemoveL i :: r => run (match remove_layer d i with Ok d' => d' | Err _ => d end) r
  end.

(** * Structures *)
(** A material made by the text of ToSolcoreMaterial, S:166-179: composition and temperature.
    (Simplified: numbers are read from their texts as they were.) *)
Record mat := Mat { m_comp : comp; m_T : R; m_strained : string }.
(** A layer of a structure, S:192 *)
Record layer := Layer { l_width : R; l_mat : mat; l_role : string }.
(** '%s' % role, S:192. *)
Definition role_text (r : option string) : string := match r with Some s => s | None => "None" end.
(** Whether a text between quotation marks ends where it should, S:192.  (Outside of the model:
    texts with backslashes.) *)
Fixpoint quotable (s : string) : bool :=
  match s with
  | EmptyString => true
  | String a r => negb (Nat.eqb (nat_of_ascii a) 34) && negb (Nat.eqb (nat_of_ascii a) 10) && quotable r
  end.
(** ToLayer, S:184-192; a SyntaxError is a RuntimeError here. *)
Definition to_layer (width : R) (m : mat) (role : option string) : res layer :=
  if quotable (role_text role) then Ok (Layer width m (role_text role)) else Err RuntimeError.
(** The loop S:207-211 from index i on, n times. *)
Fixpoint to_layers (d : device) (i n : nat) : res (list layer) :=
  match n with
  | O => Ok []
  | S n' =>
      match nth_error (d_layers d) i with
      | None => Err IndexError
      | Some x =>
          let! l := to_layer (dl_width x) (Mat (dl_comp x) (d_T d) "True") (dl_label x) in
          let! r := to_layers d (S i) n' in
          Ok (l :: r)
      end
  end.
(** ToStructure, S:195-216: layers and substrate. *)
Definition to_structure (d : device) : res (list layer * (comp * R)) :=
  let! l := to_layers d 0 (d_num d) in Ok (l, (d_substrate d, d_T d)).

(** * Absorption of a layer *)
(** The wavelength of the gap, D:154 and 167. *)
Definition edge (gap : R) : R := 1240 / 10 ^ 9 / (gap / q).
(** D:154-156 and 167-169 *)
Definition truncate (gap : R) (wl a : list R) : res (list R) :=
  let! i := np_argmax (map (fun w => - Rabs (w - edge gap)) wl) in
  Ok (firstn i a ++ map (fun _ => 0) (skipn i a)).
(** LoadAbsorption, D:132-181: whether the material is InGaAs, its gap, the absorption of its data
    and that of Adachi's model. *)
Definition load_absorption (ingaas : bool) (gap : R) (alpha adachi : res (list R)) (use_adachi : bool) (wl : list R) : res (list R * list R) :=
  if use_adachi then
    match adachi with
    | Ok a => Ok (wl, a)
    | Err _ =>
        let! a := alpha in
        if ingaas then (let! b := truncate gap wl a in Ok (wl, b)) else Ok (wl, a)
    end
  else
    let! a := alpha in
    if ingaas then
      match truncate gap wl a with
      | Ok b => Ok (wl, b)
      | Err _ => match adachi with Ok b => Ok (wl, b) | Err _ => Ok (wl, map (fun w => 0 * w) wl) end
      end
    else Ok (wl, a).

(** * Quantum wells *)
(** What solving the quantum well gives for a layer, D:211-223. *)
Record solved := Solved { q_gap : R; q_aff : R; q_me : R; q_Nc : R; q_Nv : R; q_abs : list R }.
(** D:212-223 for one layer *)
Definition update_layer (T : R) (wl : list R) (calc : bool) (x : dlayer) (s : solved) : dlayer :=
  DLayer (dl_label x) (dl_comp x) (dl_width x)
    (Props (q_gap s) (q_aff s) (q_me s) (q_Nc s) (q_Nv s) (sqrt (q_Nc s * q_Nv s * exp (- q_gap s / (kb * T))))
           (if calc then Some (wl, q_abs s) else p_abs (dl_props x))).
(** D:211-223: the layers of the device, as many as the well has. *)
Fixpoint update_layers (T : R) (wl : list R) (calc : bool) (xs : list dlayer) (ss : list solved) : list dlayer :=
  match xs, ss with
  | x :: xs', s :: ss' => update_layer T wl calc x s :: update_layers T wl calc xs' ss'
  | _, _ => xs
  end.
(** SolveQWproperties, D:184-270, once the well is solved: the device afterwards and the outcome.
    The loop D:229-259 deletes the absorption (D:232) and is the only place that imports pyplot as
    plt (D:248), a local name; D:268 leaves Python.  (Materials and their k are not modelled, since
    they are never returned.) *)
Definition solve_qw (wl : list R) (calc : bool) (ss : list solved) (d : device) : device * res (list layer) :=
  let xs := update_layers (d_T d) wl calc (d_layers d) ss in
  let d' := Device (d_T d) (d_num d) xs (d_substrate d) in
  (d', match ss with
       | [] => Err UnboundLocalError
       | _ => if forallb (fun x => match p_abs (dl_props x) with Some _ => true | None => false end) (firstn (length ss) xs)
              then Err SystemExit else Err KeyError
       end).
