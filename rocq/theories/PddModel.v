(** Model of the Poisson-drift-diffusion driver: device structures
    (solcore/poisson_drift_diffusion/DeviceStructure.py:45-129), the options handed
    from one solver to the next, the calls made to the Fortran module, and the
    assembly of an IV curve (DriftDiffusionUtilities.py:66-350, 428-476, 494-589),
    with the parts of the Fortran module (DDmodel-current.f95) that decide what those
    calls mean: [Set], [Reset], the voltage loop of [RunIV] and [Get('volt')]. *)
From Coq Require Import Reals String List Bool ZArith Arith Lra Lia.
From Verif Require Import Common InterpModel NpModel PhysConst.
From Coq Require Import List.
Import ListNotations.
Open Scope R_scope.
Open Scope string_scope.
Open Scope list_scope.

(** * Device structures *)

(** A layer of a junction: its width and [getattr(material, key)], which may raise
    (structure.py Layer; material attributes of material_system.py:344-391). *)
Record layer := Layer { l_width : R; l_attr : string -> res R }.

(** DeviceStructure.py:25-43, the keys of DefaultProperties in order. *)
Definition property_keys : list string :=
  ["band_gap"; "electron_affinity"; "eff_mass_electron_Gamma"; "eff_mass_hh_z"; "eff_mass_lh_z";
   "electron_mobility"; "hole_mobility"; "ni"; "Nc"; "Nv"; "electron_minority_lifetime"; "hole_minority_lifetime";
   "relative_permittivity"; "electron_auger_recombination"; "hole_auger_recombination"; "radiative_recombination";
   "Nd"; "Na"].

(** GetLayerProperties, DeviceStructure.py:111-129: every key of DefaultProperties is
    read from the material, and only a ValueError is replaced by the default.  The
    argument T is not used.  The string describing the composition (line 120) is not
    modelled; [width] is stored under its own key. *)
Fixpoint read_keys (dflt : string -> R) (l : layer) (ks : list string) : res (list (string * R)) :=
  match ks with
  | [] => Ok []
  | k :: ks' =>
      let! v := match l_attr l k with
                | Ok v => Ok v
                | Err ValueError => Ok (dflt k)
                | Err e => Err e
                end in
      let! r := read_keys dflt l ks' in
      Ok ((k, v) :: r)
  end.
(** With [read_keys], DeviceStructure.py:111-129, line 120. *)
Definition get_layer_properties (dflt : string -> R) (l : layer) (T : R) : res (list (string * R)) :=
  let! r := read_keys dflt l property_keys in Ok (("width", l_width l) :: r).

(** A device: the dictionary of DeviceStructure.py:60-72; each entry of [layers] has
    'numlayers' 1 (line 91) and the properties. *)
Record dev_layer := DevLayer { dl_numlayers : Z; dl_properties : list (string * R) }.
(** With [dev_layer], DeviceStructure.py:60-72, line 91. *)
Record device := Device { d_T : R; d_numlayers : Z; d_layers : list dev_layer; d_sn : R; d_sp : R }.

(** AddLayers, DeviceStructure.py:79-97: the properties are read before the layer is
    appended; an exception leaves the layers appended so far. *)
Fixpoint add_layers (dflt : string -> R) (d : device) (ls : list layer) : device * res unit :=
  match ls with
  | [] => (d, Ok tt)
  | l :: ls' =>
      match get_layer_properties dflt l (d_T d) with
      | Err e => (d, Err e)
      | Ok p =>
          add_layers dflt {| d_T := d_T d; d_numlayers := d_numlayers d + 1;
                             d_layers := d_layers d ++ [{| dl_numlayers := 1; dl_properties := p |}];
                             d_sn := d_sn d; d_sp := d_sp d |} ls'
      end
  end.

(** Python's index of a list of length n (negative indices from the end) (for [remove_layer], DeviceStructure.py:100-108). *)
Definition py_index (n : nat) (i : Z) : option nat :=
  let j := if Z.ltb i 0 then (i + Z.of_nat n)%Z else i in
  if (Z.leb 0 j && Z.ltb j (Z.of_nat n))%bool then Some (Z.to_nat j) else None.

(** RemoveLayer, DeviceStructure.py:100-108. *)
Definition remove_layer (d : device) (i : Z) : device * res unit :=
  match py_index (length (d_layers d)) i with
  | None => (d, Err IndexError)
  | Some j => ({| d_T := d_T d; d_numlayers := d_numlayers d - 1;
                  d_layers := firstn j (d_layers d) ++ skipn (S j) (d_layers d);
                  d_sn := d_sn d; d_sp := d_sp d |}, Ok tt)
  end.

(** A junction: its layers and the optional attributes sn, sp (DeviceStructure.py:71-72)
    and R_shunt (DriftDiffusionUtilities.py:303). *)
Record junction := Junction { j_layers : list layer; j_sn : option R; j_sp : option R; j_shunt : option R }.
(** With [junction], DeviceStructure.py:71-72, DriftDiffusionUtilities.py:303. *)
Definition default {A} (d : A) (o : option A) : A := match o with Some x => x | None => d end.

(** CreateDeviceStructure, DeviceStructure.py:45-76 (only the entries used later). *)
Definition create_device (dflt : string -> R) (T : R) (J : junction) : device * res unit :=
  add_layers dflt {| d_T := T; d_numlayers := 0; d_layers := []; d_sn := default 1000000 (j_sn J);
                     d_sp := default 1000000 (j_sp J) |} (j_layers J).

(** A session of structure edits; an exception is reported to the caller, who may go on (for [layer_loop], DriftDiffusionUtilities.py:99-121). *)
Inductive op := OpAdd (ls : list layer) | OpRemove (i : Z).
(** By [add_layers], DeviceStructure.py:79-97, [remove_layer], DeviceStructure.py:100-108. *)
Definition step (dflt : string -> R) (d : device) (o : op) : device :=
  match o with OpAdd ls => fst (add_layers dflt d ls) | OpRemove i => fst (remove_layer d i) end.
(** Solcore/poisson_drift_diffusion/DeviceStructure.py:45-129, DriftDiffusionUtilities.py:66-350, 428-476, 494-589. *)
Definition run (dflt : string -> R) (d : device) (os : list op) : device := fold_left (step dflt) os d.

(** * Keyword dictionaries *)

(** The values of options: numbers, flags, arrays and other objects (for [attr], state.py:9-17). *)
Inductive val := Num (r : R) | Flag (b : bool) | Vec (l : list R) | Obj (n : nat).
(** For [attr], state.py:9-17. *)
Definition kwargs := list (string * val).
(** For [attr], state.py:9-17. *)
Definition lookup {A} (k : string) (o : list (string * A)) : option A :=
  match find (fun e => String.eqb (fst e) k) o with Some e => Some (snd e) | None => None end.
(** For [equilibrium_pdd], DriftDiffusionUtilities.py:136-170. *)
Definition without {A} (k : string) (o : list (string * A)) : list (string * A) :=
  filter (fun e => negb (String.eqb (fst e) k)) o.
(** Python's [if v:] on an option (for [calculate_iv], DriftDiffusionUtilities.py:225-255, lines 318-327). *)
Definition truthy (v : val) : bool :=
  match v with
  | Num r => if Req_EM_T r 0 then false else true
  | Flag b => b
  | Vec l => negb (Nat.eqb (length l) 0)
  | Obj _ => true
  end.
(** A call f(a1, ..., **options) raises TypeError when a parameter passed explicitly is
    also in options. *)
Definition clash (names : list string) (o : kwargs) : bool :=
  existsb (fun k => match lookup k o with Some _ => true | None => false end) names.
(** [options.name] of a State: KeyError when absent (state.py:9-17). *)
Definition attr (k : string) (o : kwargs) : res val :=
  match lookup k o with Some v => Ok v | None => Err KeyError end.

(** * Calls to the Fortran module *)

(** [CSet] is both dd.set(name, value) and the assignment of a module variable (for [layer_loop], DriftDiffusionUtilities.py:99-121). *)
Inductive call :=
| CSet (name : string) (v : val)
| CReset
| CAddLayer (args : list R)
| CFront (sn sp : R)
| CBack (sn sp : R)
| CInit (meshpoints : val)
| CEquilibrium (level : val)
| CSetGeneration (wl : val)
| CIllumination (wl light : val)
| CLightSC (level : val)
| CRunIV (vfin vstep : R) (level : val).

(** Variables of the Fortran module that these calls change.  [Set] assigns one of them
    (DDmodel-current.f95:946-1014); [Reset] puts the convergence parameters back to the
    values of lines 797-801 and forgets the regions (758-805); T is 300 from its
    declaration (line 17) and is assigned by [Set] only; the other variables are not
    initialised before they are set. *)
Record fortran := Fortran { f_var : string -> option val; f_regions : list (list R) }.
(** With [fortran], DDmodel-current.f95:946-1014, lines 797-801, line 17. *)
Definition upd (f : string -> option val) (k : string) (v : option val) : string -> option val :=
  fun k' => if String.eqb k' k then v else f k'.
(** With [fortran], DDmodel-current.f95:946-1014, lines 797-801, line 17. *)
Definition reset_vars (f : string -> option val) : string -> option val :=
  upd (upd (upd (upd f "clamp" (Some (Num 20))) "atol" (Some (Num (31622776601683796 / 10 ^ 33))))
           "rtol" (Some (Num (1 / 10 ^ 6)))) "nitermax" (Some (Num 40)).
(** With [fortran], DDmodel-current.f95:946-1014, lines 797-801, line 17. *)
Definition fstep (s : fortran) (c : call) : fortran :=
  match c with
  | CSet k v => {| f_var := upd (f_var s) k (Some v); f_regions := f_regions s |}
  | CReset => {| f_var := reset_vars (f_var s); f_regions := [] |}
  | CAddLayer a => {| f_var := f_var s; f_regions := f_regions s ++ [a] |}
  | _ => s
  end.
(** With [fortran], DDmodel-current.f95:946-1014, lines 797-801, line 17. *)
Definition fortran_start : fortran :=
  {| f_var := upd (fun _ => None) "t" (Some (Num 300)); f_regions := [] |}.
(** With [fortran], DDmodel-current.f95:946-1014, lines 797-801, line 17. *)
Definition fortran_after (cs : list call) : fortran := fold_left fstep cs fortran_start.

(** Computations that call the module: they extend the list of calls made so far and
    may raise (for [layer_loop], DriftDiffusionUtilities.py:99-121). *)
Definition io (A : Type) := list call -> list call * res A.
(** For [layer_loop], DriftDiffusionUtilities.py:99-121. *)
Definition ret {A} (a : A) : io A := fun cs => (cs, Ok a).
(** For [layer_loop], DriftDiffusionUtilities.py:99-121. *)
Definition lift {A} (r : res A) : io A := fun cs => (cs, r).
(** For [layer_loop], DriftDiffusionUtilities.py:99-121. *)
Definition emit (c : call) : io unit := fun cs => (cs ++ [c], Ok tt).
(** Solcore/poisson_drift_diffusion/DeviceStructure.py:45-129, DriftDiffusionUtilities.py:66-350, 428-476, 494-589. *)
Definition bindI {A B} (m : io A) (f : A -> io B) : io B :=
  fun cs => match m cs with (cs', Ok a) => f a cs' | (cs', Err e) => (cs', Err e) end.
Notation "'do' x '<-' m 'in' k" := (bindI m (fun x => k)) (at level 200, x name, m at level 100, k at level 200).
(** For [calculate_iv], DriftDiffusionUtilities.py:225-255, lines 318-327. *)
Definition calls : io (list call) := fun cs => (cs, Ok cs).

(** Solcore/poisson_drift_diffusion/DeviceStructure.py:45-129, DriftDiffusionUtilities.py:66-350, 428-476, 494-589. *)
Fixpoint emit_all (l : list call) : io unit :=
  match l with [] => ret tt | c :: l' => do _ <- emit c in emit_all l' end.

(** SetConvergenceParameters, SetMeshParameters, SetRecombinationParameters,
    DriftDiffusionUtilities.py:495-514: pairs of Fortran name and option name, in the
    order of process_structure, lines 88-90. *)
Definition settings : list (string * string) :=
  [("nitermax", "nitermax"); ("clamp", "clamp"); ("atol", "ATol"); ("rtol", "RTol");
   ("coarse", "coarse"); ("fine", "fine"); ("ultrafine", "ultrafine"); ("growth", "growth_rate");
   ("srh", "srh"); ("rad", "rad"); ("aug", "aug"); ("sur", "sur"); ("gen", "gen")].
(** With [settings], DriftDiffusionUtilities.py:495-514, lines 88-90. *)
Fixpoint set_all (o : kwargs) (l : list (string * string)) : io unit :=
  match l with
  | [] => ret tt
  | (f, k) :: l' => do v <- lift (attr k o) in do _ <- emit (CSet f v) in set_all o l'
  end.

(** One row of the material list, DriftDiffusionUtilities.py:103-119 (asUnit(x, "eV")
    divides by q). *)
Definition item (k : string) (p : list (string * R)) : R := default 0 (lookup k p).
(** With [item], DriftDiffusionUtilities.py:103-119. *)
Definition layer_args (p : list (string * R)) : list R :=
  [item "width" p; item "band_gap" p / q; item "electron_affinity" p / q; item "electron_mobility" p;
   item "hole_mobility" p; item "Nc" p; item "Nv" p; item "electron_minority_lifetime" p;
   item "hole_minority_lifetime" p; item "relative_permittivity" p * vacuum_permittivity;
   item "radiative_recombination" p; item "electron_auger_recombination" p; item "hole_auger_recombination" p;
   item "Na" p; item "Nd" p].

(** The loop of DriftDiffusionUtilities.py:99-121: index i, advanced by the layer's own
    'numlayers'.  [fuel] bounds the number of turns; an index outside the list is an
    IndexError. *)
Fixpoint layer_loop (fuel : nat) (d : device) (i : Z) : io unit :=
  match fuel with
  | O => lift (Err RuntimeError)
  | S fuel' =>
      if Z.ltb i (d_numlayers d) then
        match py_index (length (d_layers d)) i with
        | None => lift (Err IndexError)
        | Some j =>
            let l := nth j (d_layers d) (DevLayer 1 []) in
            do _ <- emit (CAddLayer (layer_args (dl_properties l))) in
            layer_loop fuel' d (i + dl_numlayers l)
        end
      else ret tt
  end.

(** process_structure, DriftDiffusionUtilities.py:66-133.  The returned dictionary of
    properties along the mesh is read from Fortran and not modelled. *)
Definition process_structure (dflt : string -> R) (J : junction) (T : R) (meshpoints : val) (o : kwargs) : io unit :=
  do _ <- set_all o settings in
  let dr := create_device dflt T J in
  do _ <- lift (snd dr) in
  let d := fst dr in
  do _ <- emit CReset in
  do _ <- layer_loop (S (length (d_layers d))) d 0 in
  do _ <- emit (CFront (d_sn d) (d_sp d)) in
  do _ <- emit (CBack (d_sn d) (d_sp d)) in
  emit (CInit meshpoints).

(** The temperature an option stands for; the code passes it on unchecked, so anything
    that is not a number is kept out here as a TypeError (simplification) (for [equilibrium_pdd], DriftDiffusionUtilities.py:136-170). *)
Definition as_num (v : val) : res R := match v with Num r => Ok r | _ => Err TypeError end.
(** For [iv_pdd], DriftDiffusionUtilities.py:258-350, lines 343-350. *)
Definition as_vec (v : val) : res (list R) := match v with Vec l => Ok l | _ => Err TypeError end.

(** equilibrium_pdd(junction, **options), DriftDiffusionUtilities.py:136-170: T,
    output_equilibrium and meshpoints are parameters with defaults, the rest is passed
    to process_structure. *)
Definition equilibrium_pdd (dflt : string -> R) (J : junction) (o : kwargs) : io unit :=
  if clash ["junction"] o then lift (Err TypeError) else
  do T <- lift (as_num (default (Num 298) (lookup "T" o))) in
  let level := default (Num 1) (lookup "output_equilibrium" o) in
  let mesh := default (Num (-400)) (lookup "meshpoints" o) in
  let o' := without "meshpoints" (without "output_equilibrium" (without "T" o)) in
  do _ <- process_structure dflt J T mesh o' in
  do _ <- emit (CSet "gen" (Num 0)) in
  emit (CEquilibrium level).

(** short_circuit_pdd(junction, **options), DriftDiffusionUtilities.py:173-222:
    wavelength and light_source are required.  The spectrum and the absorption profile
    (lines 205-209) are computed outside this model. *)
Definition short_circuit_pdd (dflt : string -> R) (J : junction) (o : kwargs) : io unit :=
  if clash ["junction"] o then lift (Err TypeError) else
  match lookup "wavelength" o, lookup "light_source" o with
  | Some wl, Some light =>
      let level := default (Num 1) (lookup "output_sc" o) in
      let o' := without "output_sc" (without "light_source" (without "wavelength" o)) in
      do _ <- equilibrium_pdd dflt J o' in
      do _ <- emit (CSetGeneration wl) in
      do _ <- emit (CSet "gen" (Num 1)) in
      do _ <- emit (CIllumination wl light) in
      emit (CLightSC level)
  | _, _ => lift (Err TypeError)
  end.

(** * The voltage loop of the Fortran module *)

(** RunIV, DDmodel-current.f95:2046-2124 with escape = 0: a point is stored, the applied
    voltage advanced by [step] (factor is 1), and the loop goes on while the new voltage
    has not passed Vend = Vfin + 0.1 step.  Quadruple precision is idealised as reals and
    the array bound of 6000 points is not modelled.  [None]: out of fuel. *)
Fixpoint runiv_loop (fuel : nat) (vstep vend vapp : R) : option (list R) :=
  match fuel with
  | O => None
  | S fuel' =>
      let vapp' := vapp + vstep in
      let go := if Rlt_dec 0 vstep
                then (if Rle_dec (Rmax vapp' vapp) vend then true else false)
                else (if Rle_dec vend (Rmin vapp' vapp) then true else false) in
      if go then match runiv_loop fuel' vstep vend vapp' with Some l => Some (vapp :: l) | None => None end
      else Some [vapp]
  end.
(** With [runiv_loop], DDmodel-current.f95:2046-2124. *)
Definition runiv_voltages (vfin vstep : R) : option (list R) :=
  let vend := vfin + 1 / 10 * vstep in
  runiv_loop (Z.to_nat (up (Rabs (vend / vstep))) + 2) vstep vend 0.

(** The currents the solver finds at the k-th voltage of a run: they depend on all the
    calls made before.  Keys as in DumpIV (for [dump_iv], DriftDiffusionUtilities.py:428-476, DDmodel-current.f95:905-918). *)
Definition solver := list call -> nat -> string -> R.

(** Front doping: the arrays of InitDevice, DDmodel-current.f95:229-256, at the first node
    are those of the first region (regions of positive width). *)
Definition front_np (cs : list call) : R * R :=
  match f_regions (fortran_after cs) with
  | a :: _ => (nth 13 a 0, nth 14 a 0)
  | [] => (0, 0)
  end.

(** An IV dictionary (for [dump_iv], DriftDiffusionUtilities.py:428-476, DDmodel-current.f95:905-918). *)
Definition ivdict := list (string * list R).
(** For [dump_iv], DriftDiffusionUtilities.py:428-476, DDmodel-current.f95:905-918. *)
Definition currents : list string := ["J"; "Jrad"; "Jsrh"; "Jaug"; "Jsur"].
(** For [dump_iv], DriftDiffusionUtilities.py:428-476, DDmodel-current.f95:905-918. *)
Definition scale_by (s : R) (l : list R) : list R := map (Rmult s) l.

(** DumpIV(), DriftDiffusionUtilities.py:428-476 with IV_info False: [Get] shifts the
    stored points by one (DDmodel-current.f95:905-918), so the slice [1:nvolt+1] is the
    list of stored points.  The voltages are multiplied by (-1)**s twice. *)
Definition dump_iv (slv : solver) (cs : list call) (volts : list R) : ivdict :=
  let na := fst (front_np cs) in
  let nd := snd (front_np cs) in
  let s := if Rlt_dec na nd then -1 else 1 in
  ("V", scale_by s (scale_by s volts)) ::
  map (fun k => (k, scale_by s (map (fun i => slv cs i k) (seq 0 (length volts))))) currents.

(** calculate_iv(junction, vlimit, vstep, light_iv, output_iv, **options),
    DriftDiffusionUtilities.py:225-255; only the "IV" entry is modelled.  vlimit is not
    zero at the two calls (lines 318-327).  A loop that never ends is a RuntimeError here. *)
Definition calculate_iv (dflt : string -> R) (slv : solver) (J : junction) (vlimit vstep : R) (light level : val) (o : kwargs)
  : io ivdict :=
  if clash ["junction"; "vlimit"; "vstep"; "light_iv"; "output_iv"] o then lift (Err TypeError) else
  let vstep' := vlimit / Rabs vlimit * Rabs vstep in
  do _ <- (if truthy light then short_circuit_pdd dflt J o else equilibrium_pdd dflt J o) in
  do _ <- emit (CRunIV vlimit vstep' level) in
  do cs <- calls in
  match runiv_voltages vlimit vstep' with
  | None => lift (Err RuntimeError)
  | Some vs => ret (dump_iv slv cs vs)
  end.

(** consolidate_iv, DriftDiffusionUtilities.py:564-589: [l[:0:-1]] is everything but the
    first element, reversed. *)
Fixpoint join_keys (positive : ivdict) (negative : ivdict) : res ivdict :=
  match negative with
  | [] => Ok []
  | (k, l) :: n' =>
      match lookup k positive with
      | None => Err KeyError
      | Some p => let! r := join_keys positive n' in Ok ((k, rev (tl l) ++ p) :: r)
      end
  end.
(** With [join_keys], DriftDiffusionUtilities.py:564-589. *)
Definition consolidate_iv (positive negative : ivdict) : res ivdict :=
  match positive, negative with
  | [], _ => Ok negative
  | _, [] => Ok positive
  | _, _ => join_keys positive negative
  end.

(** find_minimum_bandgap, DriftDiffusionUtilities.py:517-526: min of an empty list is a
    ValueError. *)
Fixpoint bandgaps (ls : list layer) : res (list R) :=
  match ls with
  | [] => Ok []
  | l :: ls' => let! g := l_attr l "band_gap" in let! r := bandgaps ls' in Ok (g / q :: r)
  end.
(** With [bandgaps], DriftDiffusionUtilities.py:517-526. *)
Definition find_minimum_bandgap (J : junction) : res R :=
  let! gs := bandgaps (j_layers J) in
  match gs with [] => Err ValueError | g :: gs' => Ok (fold_left Rmin gs' g) end.

(** find_voltage_limits, DriftDiffusionUtilities.py:529-561. *)
Definition find_voltage_limits (bandgap vmax vmin : R) (p_on_n : bool) (T : R) : R * R :=
  if p_on_n then (Rmin (bandgap + 3 * kb * T / q) vmax, vmin)
  else (vmax, Rmax (- bandgap - 3 * kb * T / q) vmin).

(** For [iv_pdd], DriftDiffusionUtilities.py:258-350, lines 343-350. *)
Definition np_min (l : list R) : res R :=
  match l with [] => Err ValueError | x :: l' => Ok (fold_left Rmin l' x) end.

(** What iv_pdd stores in the junction (for [iv_pdd], DriftDiffusionUtilities.py:258-350, lines 343-350). *)
Record iv_data := IvData {
  iv_voltage : list R; iv_current : list R; iv_recombination : list (string * list R);
  iv_positive : ivdict; iv_negative : ivdict }.

(** iv_pdd(junction, internal_voltages, T=298, light_iv=False, output_iv=1, **options),
    DriftDiffusionUtilities.py:258-350.  The interpolator of lines 343-350 is not
    modelled. *)
Definition iv_pdd (dflt : string -> R) (slv : solver) (J : junction) (o : kwargs) : io iv_data :=
  if clash ["junction"] o then lift (Err TypeError) else
  match lookup "internal_voltages" o with
  | None => lift (Err TypeError)
  | Some iv =>
    do given <- lift (as_vec iv) in
    do T <- lift (as_num (default (Num 298) (lookup "T" o))) in
    let light := default (Flag false) (lookup "light_iv" o) in
    let level := default (Num 1) (lookup "output_iv" o) in
    let rest := without "output_iv" (without "light_iv" (without "T" (without "internal_voltages" o))) in
    do top <- lift (np_max given) in
    let volts := if Rle_dec top 0 then given ++ [1 / 100] else given in
    let shunt := match j_shunt J with Some r => Rmin r (10 ^ 14) | None => 10 ^ 14 end in
    do gap <- lift (find_minimum_bandgap J) in
    do first <- lift (match j_layers J with l :: _ => Ok l | [] => Err IndexError end) in
    do na <- lift (l_attr first "Na") in
    do nd <- lift (l_attr first "Nd") in
    let p_on_n := if Rle_dec nd na then true else false in
    do hi <- lift (np_max volts) in
    do lo <- lift (np_min volts) in
    let lim := find_voltage_limits gap hi lo p_on_n T in
    do vstep <- lift (match volts with a :: b :: _ => Ok (b - a) | _ => Err IndexError end) in
    do pos <- (if Rlt_dec 0 (fst lim) then calculate_iv dflt slv J (fst lim) vstep light level rest else ret []) in
    do neg <- (if Rlt_dec (snd lim) 0 then calculate_iv dflt slv J (snd lim) vstep light level rest else ret []) in
    do total <- lift (consolidate_iv pos neg) in
    do tv <- lift (match lookup "V" total with Some l => Ok l | None => Err KeyError end) in
    do tj <- lift (match lookup "J" total with Some l => Ok l | None => Err KeyError end) in
    let current := map (fun v => np_interp tv tj v + v / shunt) volts in
    let rec_of k := match lookup k total with Some l => map (np_interp tv l) volts | None => [] end in
    ret {| iv_voltage := volts; iv_current := current;
           iv_recombination := map (fun k => (k, rec_of k)) ["Jrad"; "Jsrh"; "Jaug"; "Jsur"];
           iv_positive := pos; iv_negative := neg |}
  end.

(** qe_pdd, DriftDiffusionUtilities.py:353-370: the calls before the quantum efficiency
    run; all the options are passed on. *)
Definition qe_pdd (dflt : string -> R) (J : junction) (o : kwargs) : io unit :=
  do _ <- lift (attr "output_qe" o) in short_circuit_pdd dflt J o.
