(** Model of solcore/quantum_mechanics/structure_utilities.py (quantum well
    structures and their discretised potentials), heterostructure_alignment.py and of
    the filters of potential_utilities.py:160-195.  Layers are Python objects: a
    structure holds references (numbers) into a heap, because the same layer object
    is put several times into a structure.  Numbers are reals, printing is left out. *)
From Coq Require Import Reals String List Bool ZArith.
From Verif Require Import Common PhysConst InterpModel NpModel StructModel StrainModel DetBalModel SmoothModel.
Import ListNotations.
Open Scope string_scope.
Open Scope R_scope.
Open Scope list_scope.

(** A Layer, structure.py:65-84: width, material and the attributes Ec and Ev that
    [VBO_align] adds. *)
Record qlayer := { q_width : R; q_mat : mat; q_Ec : option R; q_Ev : option R }.
Notation heap := (nat -> qlayer).
(** Assignment to an object (for [assemble_qw_structure], structure_utilities.py:18-38). *)
Definition hset (h : heap) (r : nat) (l : qlayer) : heap := fun r' => if Nat.eqb r' r then l else h r'.

(** [append_multiple] of a list with labels; here the lengths always agree, so the
    assertion of structure.py:26 cannot fail. *)
Definition add_layers (s : structure nat) (ls : list nat) (lbs : list string) (repeats : Z) : structure nat :=
  fst (append_multiple s true ls (Some (map Some lbs)) repeats).

(** [assemble_qw_structure], structure_utilities.py:18-38.  [fresh] is the reference of
    the new half-barrier layer; the other layers are references the caller owns.
    [structure_label] and [shift_wells] are not used by the code. *)
Definition assemble_qw_structure (h : heap) (fresh : nat) (repeats : Z) (well top bottom barrier : nat)
    (inter : option nat) : heap * structure nat :=
  let h' := hset h fresh {| q_width := q_width (h barrier) / 2; q_mat := q_mat (h barrier); q_Ec := None; q_Ev := None |} in
  let s := structure_init [] in
  let s := add_layers s [top] ["bulk"] 1 in
  let s := add_layers s [fresh] ["half barrier"] 1 in
  (h', match inter with
       | Some i =>
           let s := add_layers s [i; well; i; barrier] ["interlayer"; "well"; "interlayer"; "barrier"] (repeats - 1) in
           add_layers s [i; well; i; fresh; bottom] ["interlayer"; "well"; "interlayer"; "half barrier"; "bulk"] 1
       | None =>
           let s := add_layers s [well; barrier] ["well"; "barrier"] (repeats - 1) in
           add_layers s [well; fresh; bottom] ["well"; "half barrier"; "bulk"] 1
       end).

(** [vary_well_widths], structure_utilities.py:41-51: [draws] are the successive values
    of [random()]; every visited layer with the label is rescaled in place. *)
Fixpoint vary_loop (h : heap) (ls : list (nat * label)) (draws : list R) (fraction : R) (region : string) : heap :=
  match ls with
  | [] => h
  | (r, lb) :: ls' =>
      if label_eqb lb (Some region) then
        match draws with
        | [] => h
        | u :: draws' =>
            let l := h r in
            vary_loop (hset h r {| q_width := q_width l * (1 + (2 * u - 1) * fraction); q_mat := q_mat l;
                                   q_Ec := q_Ec l; q_Ev := q_Ev l |}) ls' draws' fraction region
        end
      else vary_loop h ls' draws fraction region
  end.
(** With [vary_loop], structure_utilities.py:41-51. *)
Definition vary_well_widths (h : heap) (s : structure nat) (draws : list R) (fraction : R) (region : string) : heap :=
  vary_loop h (combine (layers s) (labels s)) draws fraction region.

(** [(depth <= x) * (x <= depth + layer.width)], structure_utilities.py:64 and 141. *)
Definition inside (depth w x : R) : bool :=
  if Rle_dec depth x then if Rle_dec x (depth + w) then true else false else false.

(** [np.where(mask)[0]]. *)
Definition where_ (p : R -> bool) (x : list R) : list nat :=
  filter (fun i => p (at_ x i)) (seq 0 (length x)).

(** [locate_regions], structure_utilities.py:54-66. *)
Fixpoint locate_loop (w : nat -> R) (x : list R) (i : nat) (ls : list nat) (lbs : list label) (depth : R)
    (region : string) : list nat :=
  match ls with
  | [] => []
  | r :: ls' =>
      (if label_eqb (nth i lbs None) (Some region) && Nat.ltb i (length lbs)
       then where_ (inside depth (w r)) x else [])
      ++ locate_loop w x (S i) ls' lbs (depth + w r) region
  end.
(** With [locate_loop], structure_utilities.py:54-66. *)
Definition locate_regions (h : heap) (x : list R) (s : structure nat) (region : string) : list nat :=
  locate_loop (fun r => q_width (h r)) x 0 (layers s) (labels s) 0 region.

(** [VBO_align], heterostructure_alignment.py:1-7. *)
Definition VBO_align (h : heap) (s : structure nat) : heap :=
  fold_left (fun h r =>
    let l := h r in
    hset h r {| q_width := q_width l; q_mat := q_mat l;
                q_Ec := Some (m_vbo (q_mat l) + m_gap (q_mat l)); q_Ev := Some (m_vbo (q_mat l)) |})
    (layers s) h.

(** * structure_to_potentials, structure_utilities.py:85-280 *)

(** The arrays at one mesh point (for [point0], lines 119-131). *)
Record point := {
  p_Ve : R; p_Vhh : R; p_Vlh : R; p_Vso : R; p_me : R;
  p_mhh_p : R; p_mhh_t : R; p_mlh_p : R; p_mlh_t : R; p_g1 : R; p_g2 : R; p_g3 : R; p_well : bool }.
(** The initial zeros, lines 119-131. *)
Definition point0 : point :=
  {| p_Ve := 0; p_Vhh := 0; p_Vlh := 0; p_Vso := 0; p_me := 0; p_mhh_p := 0; p_mhh_t := 0;
     p_mlh_p := 0; p_mlh_t := 0; p_g1 := 0; p_g2 := 0; p_g3 := 0; p_well := false |}.

(** The modes, line 109. *)
Inductive qmode := Kp6 | Kp4 | Kp8 | Strain | Relaxed.
(** With [qmode], line 109. *)
Definition mode_of (s : string) : option qmode :=
  if String.eqb s "kp6x6" then Some Kp6 else if String.eqb s "kp4x4" then Some Kp4
  else if String.eqb s "kp8x8_bulk" then Some Kp8 else if String.eqb s "strain" then Some Strain
  else if String.eqb s "relaxed" then Some Relaxed else None.

(** The outcome of [kp8x8_bulk] (kp_bulk.py:406-439, averaged least-squares fits): edges and masses. *)
Record bands8 := { b8_c : R; b8_hh : R; b8_lh : R; b8_so : R; b8_mc : R; b8_mhh : R; b8_mlh : R; b8_mso : R }.

(** What one layer writes into its mesh points, lines 143-224.  A layer without Ec
    raises AttributeError, which line 167 re-raises (the handler of line 161 is for
    KeyError); a structure without substrate raises AttributeError at 171.  [is_well]
    is [layer == return_qw_boolean_for_layer] or False. *)
Definition layer_point (kp8 : mat -> mat -> bands8) (l : qlayer) (sub : option mat) (mode : qmode) (is_well : bool)
  : res point :=
  let m := q_mat l in
  match q_Ec l, q_Ev l, sub with
  | Some Ec, Some Ev, Some sb =>
      let p := {| p_Ve := Ec; p_Vhh := Ev; p_Vlh := Ev; p_Vso := Ev - m_so m;
                  p_me := m_me m * electron_mass;
                  p_mhh_p := 1 / (m_g1 m - 2 * m_g2 m) * electron_mass;
                  p_mhh_t := 1 / (m_g1 m + 2 * m_g2 m) * electron_mass;
                  p_mlh_p := 1 / (m_g1 m + m_g2 m) * electron_mass;
                  p_mlh_t := 1 / (m_g1 m - m_g2 m) * electron_mass;
                  p_g1 := m_g1 m; p_g2 := m_g2 m; p_g3 := m_g3 m; p_well := is_well |} in
      match mode with
      | Kp6 =>
          let b := kp6x6 m sb in
          Ok {| p_Ve := b6_c b; p_Vhh := b6_hh b; p_Vlh := b6_lh b; p_Vso := b6_so b; p_me := p_me p;
                p_mhh_p := p_mhh_p p; p_mhh_t := p_mhh_t p; p_mlh_p := b6_lh_p b; p_mlh_t := b6_lh_t b;
                p_g1 := p_g1 p; p_g2 := p_g2 p; p_g3 := p_g3 p; p_well := is_well |}
      | Kp4 =>
          let b := kp4x4 m sb in
          Ok {| p_Ve := b4_c b; p_Vhh := b4_hh b; p_Vlh := b4_lh b; p_Vso := p_Vso p; p_me := p_me p;
                p_mhh_p := p_mhh_p p; p_mhh_t := p_mhh_t p; p_mlh_p := p_mlh_p p; p_mlh_t := p_mlh_t p;
                p_g1 := p_g1 p; p_g2 := p_g2 p; p_g3 := p_g3 p; p_well := is_well |}
      | Kp8 =>
          let b := kp8 m sb in
          Ok {| p_Ve := b8_c b; p_Vhh := b8_hh b; p_Vlh := b8_lh b; p_Vso := b8_so b; p_me := b8_mc b;
                p_mhh_p := b8_mhh b; p_mhh_t := b8_mhh b; p_mlh_p := b8_mlh b; p_mlh_t := b8_mlh b;
                p_g1 := p_g1 p; p_g2 := p_g2 p; p_g3 := p_g3 p; p_well := is_well |}
      | Strain =>
          let! k := strain_calculation_parameters sb m true in
          Ok {| p_Ve := p_Ve p + k_dEc k; p_Vhh := p_Vhh p + k_dEhh k; p_Vlh := p_Vlh p + k_dElh k; p_Vso := p_Vso p;
                p_me := p_me p; p_mhh_p := p_mhh_p p; p_mhh_t := p_mhh_t p; p_mlh_p := p_mlh_p p; p_mlh_t := p_mlh_t p;
                p_g1 := p_g1 p; p_g2 := p_g2 p; p_g3 := p_g3 p; p_well := is_well |}
      | Relaxed => Ok p
      end
  | _, _, _ => Err AttributeError
  end.

(** The loop over the layers, lines 139-226: each layer overwrites the points of its
    closed interval. *)
Fixpoint fill (f : nat -> res point) (w : nat -> R) (x : list R) (ls : list nat) (depth : R) (acc : list point)
  : res (list point) :=
  match ls with
  | [] => Ok acc
  | r :: ls' =>
      let! p := f r in
      fill f w x ls' (depth + w r)
        (map (fun xp => if inside depth (w r) (fst xp) then p else snd xp) (combine x acc))
  end.

(** The number of mesh points, lines 114-118; [int] truncates towards zero and dividing
    by a zero width raises ZeroDivisionError.  [step] is the keyword step_size. *)
Definition Rtrunc (r : R) : Z := if Rle_dec 0 r then (up r - 1)%Z else (1 - up (- r))%Z.
(** With [Rtrunc], lines 114-118. *)
Fixpoint min_list (a : R) (l : list R) : R := match l with [] => a | b :: l' => min_list (Rmin a b) l' end.
(** With [Rtrunc], lines 114-118. *)
Definition mesh_size (ws : list R) (step : option Z) (min_step : Z) (feature_steps : R) : res Z :=
  match step with
  | Some n => Ok n
  | None =>
      match ws with
      | [] => Err ValueError
      | a :: l =>
          let m := min_list a l in
          if Req_EM_T m 0 then Err ZeroDivisionError
          else Ok (Z.max (Rtrunc (feature_steps / m * sumR ws)) min_step)
      end
  end.

(** Blurring, lines 229-249: [smooth] with a float window length on each array; [None]
    and 0 mean no blurring.  All arrays have the same length, so all calls end alike:
    the arrays are unchanged or the first call raises.  *)
Definition blurred (n : nat) (blur : R) (total : R) (step : Z) (mode : string) : res unit :=
  if Req_EM_T blur 0 then Ok tt
  else let! _ := smooth (repeat 0 n) (WFloat (blur / total * IZR step)) "hanning" mode in Ok tt.

(** The electric field, lines 252-256, and line 258. *)
Definition tilt (E : R) (xp : R * point) : point :=
  let (x, p) := xp in
  let d := if Req_EM_T E 0 then 0 else q * x * E in
  {| p_Ve := p_Ve p + d; p_Vhh := p_Vhh p + d; p_Vlh := p_Vlh p + d; p_Vso := p_Vso p + d; p_me := p_me p;
     p_mhh_p := p_mhh_p p; p_mhh_t := p_mhh_t p; p_mlh_p := p_mlh_p p; p_mlh_t := p_mlh_t p;
     p_g1 := p_g1 p; p_g2 := p_g2 p; p_g3 := p_g3 p; p_well := p_well p |}.
(** With [tilt], lines 252-256, line 258. *)
Definition drop_so (m : qmode) (p : point) : point :=
  match m with
  | Kp4 | Strain | Relaxed =>
      {| p_Ve := p_Ve p; p_Vhh := p_Vhh p; p_Vlh := p_Vlh p; p_Vso := p_Vso p * 0; p_me := p_me p;
         p_mhh_p := p_mhh_p p; p_mhh_t := p_mhh_t p; p_mlh_p := p_mlh_p p; p_mlh_t := p_mlh_t p;
         p_g1 := p_g1 p; p_g2 := p_g2 p; p_g3 := p_g3 p; p_well := p_well p |}
  | _ => p
  end.

(** [structure_to_potentials]: the mesh and the arrays.  [qw] is
    return_qw_boolean_for_layer (objects are compared by identity).  The returned
    dictionary (lines 262-280) is a selection of these arrays: for the modes other than
    kp4x4 and kp6x6 it holds mhh_p and mlh_p as mhh and mlh and no Luttinger parameters.
    A negative number of points makes linspace raise ValueError. *)
Record pot_args := {
  a_step : option Z; a_min_step : Z; a_feature_steps : R; a_blur : R; a_blurmode : string;
  a_qw : option nat; a_Efield : R; a_mode : string }.
(** With [pot_args], lines 262-280. *)
Definition structure_to_potentials (kp8 : mat -> mat -> bands8) (h : heap) (s : structure nat) (sub : option mat)
    (a : pot_args) : res (list R * list point) :=
  match mode_of (a_mode a) with
  | None => Err AssertionError
  | Some m =>
      let w r := q_width (h r) in
      let ws := map w (layers s) in
      let! n := mesh_size ws (a_step a) (a_min_step a) (a_feature_steps a) in
      if (n <? 0)%Z then Err ValueError
      else
        let x := linspace 0 (sumR ws) (Z.to_nat n) in
        let! ps := fill (fun r => layer_point kp8 (h r) sub m
                                    (match a_qw a with Some r' => Nat.eqb r r' | None => false end))
                        w x (layers s) 0 (repeat point0 (length x)) in
        let! _ := blurred (length x) (a_blur a) (sumR ws) n (a_blurmode a) in
        Ok (x, map (fun xp => drop_so m (tilt (a_Efield a) xp)) (combine x ps))
  end.

(** * The filters, potential_utilities.py:160-195 *)

(** [discard_unconfined_energy], lines 160-172; [V[0]] of an empty array raises
    IndexError outside the [try]. *)
Definition discard_unconfined_energy {P : Type} (E : list R) (psi : list P) (V : list R) (quasi : R)
  : res (list (R * P)) :=
  match V with
  | [] => Err IndexError
  | v0 :: _ =>
      let! top := np_max (map Rabs V) in
      let maxE := Rmin (Rabs v0) top + quasi in
      Ok (filter (fun p => if Rle_dec (Rabs (fst p)) maxE then true else false) (combine E psi))
  end.

(** [discard_unconfined], lines 175-195; dividing by a zero norm gives nan or inf in
    numpy, nan is not >= threshold: the model drops such a state (a simplification for a
    zero norm with a non-zero share). *)
Definition pick (l : list R) (ix : list nat) : list R := map (fun i => at_ l i) ix.
(** With [pick], lines 175-195. *)
Definition share (x psi : list R) (ix : list nat) : R :=
  np_trapz (map (fun v => v ^ 2) (pick psi ix)) (pick x ix) / np_trapz (map (fun v => v ^ 2) psi) x.
(** With [pick], lines 175-195. *)
Definition discard_unconfined (h : heap) (x : list R) (s : structure nat) (E : list R) (psi : list (list R))
    (threshold : R) : list (R * list R) :=
  if Req_EM_T threshold 0 then combine E psi
  else filter (fun p =>
    if Req_EM_T (np_trapz (map (fun v => v ^ 2) (snd p)) x) 0 then false
    else if Rle_dec threshold (share x (snd p) (locate_regions h x s "well")) then true else false)
    (combine E psi).
