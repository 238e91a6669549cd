(** Model of the external optics (solcore/optics/external_optics.py) and of the RCWA optics
    (solcore/optics/rcwa.py and solcore/absorption_calculator/rigorous_coupled_wave.py).
    Floats are reals. Arrays over the wavelength are modelled at one wavelength. The S4 solver is
    an arbitrary function of everything it has been told. *)
From Coq Require Import Reals String List Arith Bool.
From Coquelicot Require Import Complex.
From Verif Require Import Common ParamModel MaterialModel NpModel TmmModel StackModel RatModel.
From Coq Require Import List.
Import ListNotations.
Open Scope R_scope.
Open Scope list_scope.

(** * optics/external_optics.py *)
(** The attribute [external_reflected]: a number (or an array over the wavelengths), or a
    function as the documentation of lines 19-20 asks for. *)
Inductive ext_refl : Type := ENumber (r : R) | EFunction (f : R -> R).
(** What is read of the cell: [shading] (a cell may lack it, line 41), the two external
    attributes, and the offset and width of its elements. *)
Record ext_cell : Type := ExtCell {
  ec_shading : option R; ec_refl : option ext_refl; ec_abs : option (R -> R); ec_elements : list (R * R) }.
(** What is written; [eo_elements] is the method [absorbed] of every element (for [solve_external], lines 38-63, line 45). *)
Record ext_out : Type := ExtOut { eo_refl : R; eo_abs : R; eo_trans : R; eo_elements : list (R -> R) }.
(** Line 41 *)
Definition initial_light (shading : option R) : R := match shading with Some s => 1 - s | None => 1 end.
(** Lines 66-68; [z < self.width] is 0 or 1. *)
Definition ext_absorbed (d : R -> R) (offset width z : R) : R :=
  d (offset + z) * (if Rlt_dec z width then 1 else 0).
(** Lines 38-63. The first component is the attribute [reflected] of the cell, set at line 45
    before [external_absorbed] is looked up. A function times a number is a TypeError. *)
Definition solve_external (c : ext_cell) (position : list R) : option R * res ext_out :=
  let initial := initial_light (ec_shading c) in
  match ec_refl c with
  | None => (None, Err AttributeError)
  | Some (EFunction _) => (None, Err TypeError)
  | Some (ENumber r) =>
      match ec_abs c with
      | None => (Some (r * initial), Err AttributeError)
      | Some d =>
          let all := np_trapz (map d position) position in
          (Some (r * initial),
           Ok (ExtOut (r * initial) (all * initial) ((1 - r - all) * initial)
                 (map (fun e => ext_absorbed d (fst e) (snd e)) (ec_elements c))))
      end
  end.

(** * rigorous_coupled_wave.py: materials and shapes *)
(** A material object: its identity, what [__repr__] reads (material_system.py:287-299 and
    453-458: the name and the keyword arguments, which do not include T), its temperature, and
    the methods n and k. The values of the keyword arguments are given as they print, in the
    order of their names. *)
Record mat : Type := Mat {
  m_id : nat; m_name : string; m_params : list (string * string); m_T : R; m_n : R -> R; m_k : R -> R }.
(** material_system.py:453-458 [__repr__], which is what [str] gives. *)
Definition mat_str (m : mat) : string :=
  let ps := map (fun p => (fst p ++ "=" ++ snd p)%string) (m_params m) in
  ("<'" ++ m_name m ++ "' material" ++
   (if (length ps =? 0)%nat then "" else " " ++ String.concat " " ps) ++ ">")%string.
(** One shape of the geometry of a layer: its type, its material and the rest of its entries (for [geom_list], lines 65-67). *)
Record shape : Type := Shape { sh_type : string; sh_mat : mat; sh_rest : list R }.
(** A Layer: width in metres, material, geometry (None and the empty list are both false) (for [geom_list], lines 65-67). *)
Record glayer : Type := GLayer { gl_width : R; gl_mat : mat; gl_geometry : list shape }.
(** Lines 65-67: nothing in the incidence and transmission media. *)
Definition geom_list (structure : list glayer) : list (list shape) :=
  [] :: map gl_geometry structure ++ [[]].
(** Lines 226-249 [necessary_materials]: the list of a set may come in any order, hence the
    argument [set_of]; the second result has the material of every shape replaced by its string. *)
Definition all_mats (g : list (list shape)) : list mat := concat (map (map sh_mat) g).
(** With [all_mats], lines 226-249. *)
Definition named (g : list (list shape)) : list (list (string * string * list R)) :=
  map (map (fun s => (sh_type s, mat_str (sh_mat s), sh_rest s))) g.
(** With [all_mats], lines 226-249. *)
Definition necessary_materials (set_of : list mat -> list mat) (g : list (list shape))
  : list mat * list (list (string * string * list R)) := (set_of (all_mats g), named g).
(** Lines 73-74 and 91-92: (n + ik)^2, the wavelength in nm. *)
Definition eps (m : mat) (wl : R) : C := let x := (RtoC (m_n m (wl / 10 ^ 9)%R) + Ci * RtoC (m_k m (wl / 10 ^ 9)%R))%C in (x * x)%C.
(** Lines 78-92: the first medium without its k. *)
Definition layers_oc (structure : list glayer) (incidence substrate : option mat) (wl : R) : list C :=
  match incidence with None => RtoC 1 | Some m => RtoC (m_n m (wl / 10 ^ 9) ^ 2) end ::
  map (fun l => eps (gl_mat l) wl) structure ++
  [match substrate with None => RtoC 1 | Some m => eps m wl end].
(** Line 77, transfer_matrix.py:198-209 with [no_back_reflection=False]: [None] is infinite. *)
Definition rcwa_widths (structure : list glayer) : list (option R) :=
  None :: map (fun l => Some (gl_width l * 10 ^ 9)) structure ++ [None].

(** * Options *)
(** For [DEFAULT_OPTIONS], lines 12-20. *)
Definition options : Type := list (string * string).
(** Lines 12-20; the values are given as they print. *)
Definition DEFAULT_OPTIONS : options :=
  [("LatticeTruncation", "Circular"); ("DiscretizedEpsilon", "False"); ("DiscretizationResolution", "8");
   ("PolarizationDecomposition", "False"); ("PolarizationBasis", "Default"); ("LanczosSmoothing", "False");
   ("SubpixelSmoothing", "False"); ("ConserveMemory", "False"); ("WeismannFormulation", "False")]%string.
(** dict.update (for [use_options], lines 96-98 and 327-330). *)
Definition update (d u : options) : options := fold_left (fun d p => dset (fst p) (snd p) d) u d.
(** Lines 96-98 and 327-330: the dictionary of the module is itself updated, so the state after
    the call is what the call used. *)
Definition use_options (d : options) (user : option options) : options :=
  match user with None => d | Some u => update d u end.
(** [options[k]] of lines 178-186 *)
Definition get_option (d : options) (k : string) : res (string * string) :=
  match ParamModel.lookup d k with Some v => Ok (k, v) | None => Err KeyError end.
(** With [get_option], lines 178-186. *)
Definition option_names : list string :=
  ["LatticeTruncation"; "DiscretizedEpsilon"; "DiscretizationResolution"; "PolarizationDecomposition";
   "PolarizationBasis"; "LanczosSmoothing"; "SubpixelSmoothing"; "ConserveMemory"; "WeismannFormulation"]%string.
(** Lines 177-187: the keyword arguments of [SetOptions]. *)
Definition set_options (d : options) : res options := mapRR (get_option d) option_names.
(** A session: calls with or without options (by [DEFAULT_OPTIONS], lines 12-20, [use_options], lines 96-98 and 327-330). *)
Definition after (h : list (option options)) : options := fold_left use_options h DEFAULT_OPTIONS.

(** * Lines 160-223 [initialise_S] *)
(** The names 'layer_1', ... and 'shape_mat_1', ... *)
Inductive name : Type := NLayer (i : nat) | NShape (i : nat).
(** What S4 has been told; a region is a layer, a material, a type and its numbers. *)
Record sim : Type := Sim {
  sm_size : (R * R) * (R * R); sm_orders : nat; sm_options : options;
  sm_materials : list (name * C); sm_layers : list (name * R * name);
  sm_regions : list (name * name * string * list R) }.
(** [list.index] (for [regions], lines 208-221). *)
Fixpoint index_of_str (l : list string) (s : string) : res nat :=
  match l with
  | [] => Err ValueError
  | x :: r => if String.eqb x s then Ok 0%nat else let! i := index_of_str r s in Ok (S i)
  end.
(** Lines 213-221: a shape of any other type is left out. *)
Definition known_shape (t : string) : bool :=
  existsb (String.eqb t) ["circle"; "ellipse"; "rectangle"; "polygon"]%string.
(** Lines 208-221, the shapes of one layer. *)
Fixpoint regions (names : list string) (layer : name) (g : list (string * string * list R))
  : res (list (name * name * string * list R)) :=
  match g with
  | [] => Ok []
  | (t, m, rest) :: g' =>
      let! i := index_of_str names m in
      let! tail := regions names layer g' in
      Ok (if known_shape t then (layer, NShape (i + 1), t, rest) :: tail else tail)
  end.
(** Numbering from 1. *)
Definition numbered {A} (l : list A) : list (nat * A) := combine (seq 1 (length l)) l.
(** For [make_sim], lines 60-98. *)
Definition initialise_S (size : (R * R) * (R * R)) (orders : nat) (g : list (list (string * string * list R)))
  (mats_oc shapes_oc : list C) (names : list string) (widths : list (option R)) (d : options) : res sim :=
  let! o := set_options d in
  let! rs := mapRR (fun p => regions names (NLayer (fst p)) (snd p)) (numbered g) in
  Ok (Sim size orders o
        (map (fun p => (NShape (fst p), snd p)) (numbered shapes_oc) ++
         map (fun p => (NLayer (fst p), snd p)) (numbered mats_oc))
        (map (fun p => (NLayer (fst p), match snd p with None => 0 | Some w => w end, NLayer (fst p))) (numbered widths))
        (concat rs)).

(** * Powers, at one wavelength *)
(** S.GetPowerFlux(layer, depth): forward and backward, complex (for [rcwa_R], lines 135-157). *)
Definition flux : Type := nat -> R -> C * C.
(** For [rcwa_absorption_per_layer], lines 389-405. *)
Definition net (F : flux) (layer : nat) (z : R) : C := (fst (F layer z) + snd (F layer z))%C.
(** theta in degrees (for [rcwa_R], lines 135-157). *)
Definition cosd (theta : R) : R := cos (theta * PI / 180).
(** Lines 135-157 [rcwa_rat]; the powers by order do not enter. *)
Definition rcwa_R (F : flux) (theta n_inc : R) : R := - n_inc * Re (snd (F 1%nat 0)) / cosd theta.
(** With [rcwa_R], lines 135-157. *)
Definition rcwa_T (F : flux) (n_layers : nat) (theta n_inc : R) : R := Re (RtoC n_inc * net F n_layers 0)%C / cosd theta.
(** Lines 389-405 [rcwa_absorption_per_layer] *)
Definition rcwa_absorption_per_layer (F : flux) (n_layers : nat) (theta n_inc : R) : list R :=
  let A := map (fun layer => Re (net F layer 0 - net F (layer + 1) 0)%C) (seq 2 (n_layers - 2)) in
  map (fun x => n_inc * (if Rlt_dec 0 x then x else 0) / cosd theta) A.
(** Lines 370-387 [rcwa_position_resolved]; lengths in nm. *)
Definition rcwa_position_resolved (F : flux) (layer : nat) (depth A theta n_inc : R) : R :=
  if Rlt_dec 0 A then
    let delta := / 10 ^ 9 in
    n_inc * Re (net F layer (depth - delta) - net F layer (depth + delta))%C / (2 * delta * cosd theta)
  else 0.
(** The argument [pol]: a string, or a tuple of amplitudes (for [a_layer], line 455). *)
Inductive pol_t : Type := PStr (s : string) | PTup (l : list C).
(** The result [A_layer]: one list, or one for each polarisation (line 455). *)
Inductive a_layer : Type := AOne (l : list R) | ATwo (s p : list R).

Section S4.
(** S4: from what it has been told, the frequency, the angles and the amplitudes of the s and p
    waves, the power flux in any layer. *)
Context (S4 : sim -> R -> R * R -> C * C -> flux).

(** Lines 429-436 [vs_pol] *)
Definition vs_pol (m : sim) (wl theta phi : R) (n : nat) (n_inc : R) (a : C * C) : R * R * list R :=
  let F := S4 m (1 / wl) (theta, phi) a in
  (rcwa_R F theta n_inc, rcwa_T F n theta n_inc, rcwa_absorption_per_layer F n theta n_inc).
(** With [vs_pol], lines 429-436. *)
Definition one_if (b : bool) : C := if b then RtoC 1 else RtoC 0.
(** Lines 407-457 [RCWA_wl] once S is made. The two characters of a string are not amplitudes, and
    [pol in 'sp'] wants a string: TypeErrors. *)
Definition RCWA_wl (m : sim) (wl theta phi : R) (n : nat) (n_inc : R) (pol : pol_t) : res (R * R * a_layer) :=
  let go a := let r := vs_pol m wl theta phi n n_inc a in Ok (fst (fst r), snd (fst r), AOne (snd r)) in
  match pol with
  | PTup [a; b] => go (a, b)
  | PTup _ => Err TypeError
  | PStr p =>
      if (String.length p =? 2)%nat then Err TypeError
      else if in_sp p then go (one_if (String.eqb p "s"), one_if (String.eqb p "p"))
      else
        let s := vs_pol m wl theta phi n n_inc (RtoC 1, RtoC 0) in
        let q := vs_pol m wl theta phi n n_inc (RtoC 0, RtoC 1) in
        Ok ((fst (fst s) + fst (fst q)) / 2, (snd (fst s) + snd (fst q)) / 2, ATwo (snd s) (snd q))
  end.
(** An entry of the result at one wavelength: a number or a row (for [collect_rat], lines 118-132). *)
Inductive arr : Type := Num (x : R) | Row (l : list R).
(** For [collect_rat], lines 118-132. *)
Record rcwa_out : Type := RcwaOut {
  rw_R : R; rw_T : R; rw_layers : a_layer; rw_A : arr; rw_pol : arr }.
(** [np.sum] and [np.mean] over the axis of the polarisations (for [collect_rat], lines 118-132). *)
Definition add_rows (a b : list R) : list R := map (fun p => fst p + snd p) (combine a b).
(** For [collect_rat], lines 118-132. *)
Definition mean_rows (a b : list R) : list R := map (fun x => x / 2) (add_rows a b).
(** Lines 118-132 *)
Definition collect_rat (pol : pol_t) (r : R * R * a_layer) : rcwa_out :=
  let u := match pol with PStr p => String.eqb p "u" | PTup _ => false end in
  match snd r with
  | AOne l => RcwaOut (fst (fst r)) (snd (fst r)) (AOne l) (Num (add_up l)) (Num (add_up l))
  | ATwo s p =>
      if u then RcwaOut (fst (fst r)) (snd (fst r)) (AOne (mean_rows s p)) (Num (add_up (mean_rows s p)))
                  (Row [add_up s; add_up p])
      else RcwaOut (fst (fst r)) (snd (fst r)) (ATwo s p) (Row (add_rows s p)) (Row (add_rows s p))
  end.
(** Lines 440 and 494: [l_oc[0]] is real (line 83). *)
Definition n_inc_of (l_oc : list C) : R := sqrt (Re (hd (RtoC 0) l_oc)).
(** The simulation of lines 60-98 (and 293-330) for one wavelength. *)
Definition make_sim (set_of : list mat -> list mat) (structure : list glayer) (size : (R * R) * (R * R))
  (orders : nat) (wl : R) (incidence substrate : option mat) (d : options) : res sim :=
  let nm := necessary_materials set_of (geom_list structure) in
  initialise_S size orders (snd nm) (layers_oc structure incidence substrate wl) (map (fun x => eps x wl) (fst nm))
    (map mat_str (fst nm)) (rcwa_widths structure) d.
(** Lines 23-132 [calculate_rat_rcwa] at one wavelength in nm; [parallel] changes nothing. The
    first component is the dictionary of options afterwards. *)
Definition calculate_rat_rcwa (set_of : list mat -> list mat) (structure : list glayer)
  (size : (R * R) * (R * R)) (orders : nat) (wl : R) (incidence substrate : option mat) (theta phi : R)
  (pol : pol_t) (user : option options) (d : options) : options * res rcwa_out :=
  let d' := use_options d user in
  (d', let! m := make_sim set_of structure size orders wl incidence substrate d' in
       let! r := RCWA_wl m wl theta phi (length (rcwa_widths structure))
                   (n_inc_of (layers_oc structure incidence substrate wl)) pol in
       Ok (collect_rat pol r)).

(** [tmm.find_in_structure_with_inf] of the tmm package, which is not part of the repository:
    the number of the layer, the medium in front being 0, and the depth in it. *)
Fixpoint find_depth (i : nat) (ws : list R) (z : R) : nat * R :=
  match ws with
  | [] => (i, z)
  | w :: r => if Rlt_dec z w then (i, z) else find_depth (S i) r (z - w)
  end.
(** For [vs_pol_prof], lines 481-491. *)
Definition find_layer (ws : list R) (z : R) : nat * R := if Rlt_dec z 0 then (0%nat, z) else find_depth 1 ws z.
(** Lines 481-491 [vs_pol_prof] at one position [z] in nm. *)
Definition vs_pol_prof (m : sim) (ws : list R) (wl theta phi n_inc : R) (z : R) (a : C * C) (A : R) : R :=
  let p := find_layer ws z in
  rcwa_position_resolved (S4 m (1 / wl) (theta, phi) a) (fst p + 1) (snd p) A theta n_inc.
(** [A[0]] and [A[1]] of lines 504-505; the comparison of a row with 0 in line 381 is a ValueError
    unless the row has one entry. *)
Definition arr_at (a : arr) (i : nat) : res R :=
  match a with
  | Num _ => Err IndexError
  | Row l => match nth_error l i with Some x => Ok x | None => Err IndexError end
  end.
(** With [arr_at], lines 504-505, line 381. *)
Definition arr_num (a : arr) : res R :=
  match a with Num x => Ok x | Row [x] => Ok x | Row _ => Err ValueError end.
(** Lines 460-509 [RCWA_wl_prof] at one position. *)
Definition RCWA_wl_prof (m : sim) (ws : list R) (wl theta phi n_inc : R) (pol : pol_t) (A : arr) (z : R) : res R :=
  let go a A := Ok (vs_pol_prof m ws wl theta phi n_inc z a A) in
  match pol with
  | PTup [a; b] => let! x := arr_num A in go (a, b) x
  | PTup _ => Err TypeError
  | PStr p =>
      if (String.length p =? 2)%nat then Err TypeError
      else if in_sp p then let! x := arr_num A in go (one_if (String.eqb p "s"), one_if (String.eqb p "p")) x
      else
        let! As := arr_at A 0 in
        let! Ap := arr_at A 1 in
        let! s := go (RtoC 1, RtoC 0) As in
        let! q := go (RtoC 0, RtoC 1) Ap in
        Ok (/ 2 * (s + q))
  end.

(** * optics/rcwa.py:33-175 [solve_rcwa] *)
(** What a SolarCell holds (lines 104 and 110 look at the exact type). *)
Inductive gobj : Type := GSingle (l : glayer) | GJunction (ls : list glayer) | GTunnel (ls : list glayer) | GOther.
(** Lines 98-113 *)
Definition gcollect (objs : list gobj) : list glayer * list nat :=
  fold_left (fun acc o =>
    match o with
    | GSingle l => (fst acc ++ [l], snd acc ++ [1%nat])
    | GJunction ls | GTunnel ls => (fst acc ++ ls, snd acc ++ [length ls])
    | GOther => acc
    end) objs ([], []).
(** The number of elements is all that the loop of lines 162-169 reads of the cell; it is the
    same loop as in tmm.py, [shares], and the same assignments, [stored]. *)
Definition gcell : Type := list (nat * gobj).
(** Lines 91-175 at one wavelength in metres, for a result with one absorptance for every layer;
    with one for every polarisation the attributes of the cell are pairs, which is outside this
    function (NotImplementedError). The profile is [RCWA_wl_prof] and, from there on, the same
    closures as in tmm.py, [diff_absorption]. *)
Definition solve_rcwa (set_of : list mat -> list mat) (shading : R) (c : gcell) (size : (R * R) * (R * R))
  (orders : nat) (wl : R) (incidence substrate : option mat) (theta phi : R) (pol : pol_t)
  (user : option options) (d : options) : options * res optics :=
  let st := gcollect (map snd c) in
  let r := calculate_rat_rcwa set_of (fst st) size orders (wl * 10 ^ 9) incidence substrate theta phi pol user d in
  let initial := 1 - shading in
  (use_options (fst r) user,
   let! x := snd r in
   match rw_layers x with
   | ATwo _ _ => Err NotImplementedError
   | AOne A =>
       let! L := shares initial A (snd st) 0 (map (fun _ => OOther) c) in
       let final := map (stored (map fst c) L) (map fst c) in
       Ok (Optics (rw_R x * initial) final (add_up final) (initial - rw_R x * initial - add_up final))
   end).
End S4.
