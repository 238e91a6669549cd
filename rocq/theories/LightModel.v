(** Model of [solcore/light_source/light_source.py]: the [LightSource] class with
    the laser, black body, standard and custom sources, and the registered output
    converters.  Numbers are ideal reals; an array operation that would give inf or
    NaN because of a division by zero is an error here (as in UnitsModel).
    SPECTRAL2 and SMARTS are a parameter here and in SmartsModel.v. *)
From Coq Require Import Reals String List Bool Arith.
From Verif Require Import Common MatStrModel UnitsModel InterpModel NumModel NpModel PhysConst.
Import ListNotations.
Open Scope R_scope.
Open Scope list_scope.

(** A power spectrum in W/m2/nm as a function of the wavelength in nm; the code
    passes whole arrays, every function used acts element by element. *)
Notation spectrum_fun := (R -> res R).

(** An element-wise operation on two arrays (no broadcasting of length 1). *)
Fixpoint each2 (f : R -> R -> res R) (l m : list R) : res (list R) :=
  match l, m with
  | [], [] => Ok []
  | x :: l', y :: m' => let! z := f x y in let! r := each2 f l' m' in Ok (z :: r)
  | _, _ => Err ValueError
  end.
(** [1e9] and [1e-9]. *)
Definition e9 : R := 1000000000.
(** For [black_body], light_source.py:281-291. *)
Definition em9 : R := / 1000000000.

Section Light.
(** The parser of numbers and the table of the units system (UnitsModel). *)
Context (fl : text -> option R) (tb : table).

(** * The converters *)

(** [power_density_per_nm], light_source.py:461-470. *)
Definition power_density_per_nm (s : spectrum_fun) (x : list R) : res (list R) := each s x.
(** [photon_flux_per_nm], light_source.py:474-483. *)
Definition photon_flux_per_nm (s : spectrum_fun) (x : list R) : res (list R) :=
  let! y := each s x in
  let! e := each (divide (c * h * e9)) x in each2 divide y e.
(** [power_density_per_m], light_source.py:487-496. *)
Definition power_density_per_m (s : spectrum_fun) (x : list R) : res (list R) :=
  let! y := each s (map (fun v => v * e9) x) in Ok (map (fun v => v * e9) y).
(** [photon_flux_per_m], light_source.py:500-509. *)
Definition photon_flux_per_m (s : spectrum_fun) (x : list R) : res (list R) :=
  let! y := each s (map (fun v => v * e9) x) in
  let! e := each (divide (c * h)) x in
  let! r := each2 divide y e in Ok (map (fun v => v * e9) r).
(** [power_density_per_ev], light_source.py:513-525. *)
Definition power_density_per_ev (s : spectrum_fun) (x : list R) : res (list R) :=
  let! w := each (eVnm fl h c tb) x in
  let! y := each s (rev w) in
  let! r := spectral_nm_ev fl h c tb (rev w) y in Ok (snd r).
(** [photon_flux_per_ev], light_source.py:529-541. *)
Definition photon_flux_per_ev (s : spectrum_fun) (x : list R) : res (list R) :=
  let! w := each (eVnm fl h c tb) x in
  let! y := each s (rev w) in
  let! r := spectral_nm_ev fl h c tb (rev w) y in each2 (fun o v => divide o (q * v)) (snd r) x.
(** [power_density_per_joule], light_source.py:545-559. *)
Definition power_density_per_joule (s : spectrum_fun) (x : list R) : res (list R) :=
  let! w := each (nmJ fl h c tb) x in
  let! y := each s (rev w) in
  let! r := spectral_nm_ev fl h c tb (rev w) y in Ok (map (fun o => o / q) (snd r)).
(** [photon_flux_per_joule], light_source.py:563-575. *)
Definition photon_flux_per_joule (s : spectrum_fun) (x : list R) : res (list R) :=
  let! w := each (nmJ fl h c tb) x in
  let! y := each s (rev w) in
  let! r := spectral_nm_ev fl h c tb (rev w) y in each2 (fun o v => divide o (q * v)) (snd r) x.
(** [power_density_per_hz], light_source.py:579-591. *)
Definition power_density_per_hz (s : spectrum_fun) (x : list R) : res (list R) :=
  let! w := each (nmHz fl c tb) x in
  let! y := each s (rev w) in
  let! r := spectral_nm_hz fl c tb (rev w) y in Ok (snd r).
(** [photon_flux_per_hz], light_source.py:595-607. *)
Definition photon_flux_per_hz (s : spectrum_fun) (x : list R) : res (list R) :=
  let! w := each (nmHz fl c tb) x in
  let! y := each s (rev w) in
  let! r := spectral_nm_hz fl c tb (rev w) y in each2 (fun o f => divide o (h * f)) (snd r) (fst r).

(** [REGISTERED_CONVERTERS], light_source.py:18, 455 and the ten registrations. *)
Notation converter := (spectrum_fun -> list R -> res (list R)).
(** For [light_source], light_source.py:69-99. *)
Definition converters : list (string * converter) :=
  [("power_density_per_nm", power_density_per_nm); ("photon_flux_per_nm", photon_flux_per_nm);
   ("power_density_per_m", power_density_per_m); ("photon_flux_per_m", photon_flux_per_m);
   ("power_density_per_ev", power_density_per_ev); ("photon_flux_per_ev", photon_flux_per_ev);
   ("power_density_per_joule", power_density_per_joule); ("photon_flux_per_joule", photon_flux_per_joule);
   ("power_density_per_hz", power_density_per_hz); ("photon_flux_per_hz", photon_flux_per_hz)]%string.
(** Lookup by name (for [update_options], light_source.py:131-145). *)
Fixpoint find_name {A} (l : list (string * A)) (n : string) : option A :=
  match l with
  | [] => None
  | (k, v) :: l' => if String.eqb k n then Some v else find_name l' n
  end.

(** * Options *)

(** A value of the option dictionary: a number, a text or an array (for [set_opt], light_source.py:279). *)
Inductive oval := ONum (r : R) | OText (s : string) | OArr (l : list R).
(** [self.options], a dictionary in insertion order. *)
Notation options := (list (string * oval)).
(** [options[k]]: a missing key is a KeyError (for [get_standard], light_source.py:187-219). *)
Definition opt (o : options) (k : string) : res oval :=
  match find_name o k with Some v => Ok v | None => Err KeyError end.
(** A value used as a number or as an array; another type fails in the arithmetic (for [etendue], light_source.py:268-279). *)
Definition as_number (v : oval) : res R := match v with ONum r => Ok r | _ => Err TypeError end.
(** For [get_custom], light_source.py:385-446. *)
Definition as_array (v : oval) : res (list R) := match v with OArr l => Ok l | _ => Err TypeError end.
(** [options[k] = v], light_source.py:279 (replace in place or append). *)
Fixpoint set_opt (o : options) (k : string) (v : oval) : options :=
  match o with
  | [] => [(k, v)]
  | (k', v') :: o' => if String.eqb k' k then (k, v) :: o' else (k', v') :: set_opt o' k v
  end.
(** [_update], light_source.py:131-145: only existing options. *)
Definition update_options (o : options) (kw : options) : options :=
  fold_left (fun o p => match find_name o (fst p) with Some _ => set_opt o (fst p) (snd p) | None => o end) kw o.

(** * Building the spectrum *)

(** What building gives: a spectrum with the internal abscissas, the power density
    and the options; a printed KeyError (the function returns None); or an
    exception, with the internal abscissas set before it if any (for [tabulated], light_source.py:209-216, 436). *)
Inductive built :=
| Built (s : spectrum_fun) (xi : list R) (pd : R) (o : options)
| Printed
| Failed (e : exn) (xi : option (list R)).
(** The [try ... except KeyError: print] around each builder (for [get_standard], light_source.py:187-219). *)
Definition catch_key (r : res built) : built :=
  match r with
  | Ok b => b
  | Err KeyError => Printed
  | Err e => Failed e None
  end.

(** [scipy.interpolate.interp1d(x, y, bounds_error=False, fill_value=0)], after the
    assignment of [x_internal] and the trapezium; light_source.py:209-216, 436-443.
    Arrays of different lengths fail in the trapezium. *)
Definition tabulated (con : R) (wl y : list R) (o : options) : built :=
  if negb (Nat.eqb (length wl) (length y)) then Failed ValueError (Some wl)
  else if Nat.ltb (length wl) 2 then Failed ValueError (Some wl)
  else Built (fun v => Ok (scipy_interp wl y 0 0 v)) wl (np_trapz y wl * con) o.

(** The reference spectra (columns of the data file): wavelengths, AM0, AM1.5g, AM1.5d. *)
Context (ref_wl am0 am15g am15d : list R).
(** [_get_standard_spectrum], light_source.py:187-219. *)
Definition get_standard (con : R) (o : options) : built :=
  catch_key (
    let! v := opt o "version" in
    match v with
    | OText s =>
        if String.eqb s "AM0" then Ok (tabulated con ref_wl am0 o)
        else if String.eqb s "AM1.5g" then Ok (tabulated con ref_wl am15g o)
        else if String.eqb s "AM1.5d" then Ok (tabulated con ref_wl am15d o)
        else Err KeyError
    | _ => Err KeyError
    end).

(** [_get_laser_spectrum], light_source.py:221-252; [sigma2] = linewidth**2. *)
Definition laser (power sigma2 center x : R) : res R :=
  let! a := divide power (sqrt (2 * PI * sigma2)) in
  let! b := divide (- (x - center) ^ 2 / 2) sigma2 in Ok (a * exp b).
(** With [laser], light_source.py:221-252. *)
Definition get_laser (con : R) (o : options) : built :=
  catch_key (
    let! p := bindR (opt o "power") as_number in
    let! l := bindR (opt o "linewidth") as_number in
    let! m := bindR (opt o "center") as_number in
    let! xi := arange (m - 5 * l) (m + 5 * l) (l / 20) in
    Ok (Built (laser p (l ^ 2) m) xi (p * con) o)).

(** The numeric etendue, light_source.py:268-279: the default 1 is stored. *)
Definition etendue (o : options) : res (R * options) :=
  match find_name o "entendue" with
  | Some (OText s) =>
      if String.eqb s "Sun" then Ok (68 / 1000000, o)
      else if String.eqb s "hemispheric" then Ok (PI / 2, o)
      else Err TypeError
  | Some v => let! r := as_number v in Ok (r, o)
  | None => Ok (1, set_opt o "entendue" (ONum 1))
  end.
(** [BB], light_source.py:281-291. *)
Definition black_body (ent T x : R) : res R :=
  let v := x * em9 in
  let! a := divide (2 * ent * h * c ^ 2) (v ^ 5) in
  let! e := divide (h * c) (v * kb * T) in
  let! b := divide a (exp e - 1) in Ok (b * em9).
(** [_get_blackbody_spectrum], light_source.py:254-306. *)
Definition get_blackbody (con : R) (o : options) : built :=
  catch_key (
    let! T := bindR (opt o "T") as_number in
    let! eo := etendue o in
    let '(ent, o') := eo in
    let! wl_max := divide (28977729 / 10) T in
    let! xi := arange 0 (wl_max * 10) (wl_max / 100) in
    Ok (Built (black_body ent T) xi (5670367 / 10 ^ 14 * T ^ 4 * ent / PI * con) o')).

(** The conversion of a custom spectrum to power density per nm,
    light_source.py:401-433, by the name of the input units. *)
Definition custom_to_nm (units : string) (x y : list R) : res (list R * list R) :=
  (* [y * (c * h * 1e9 / wl)] *)
  let times_energy (wl y : list R) : res (list R) :=
    let! e := each (divide (c * h * e9)) wl in each2 (fun a b => Ok (a * b)) y e in
  if String.eqb units "power_density_per_nm" then Ok (x, y)
  else if String.eqb units "photon_flux_per_nm" then
    let! s := times_energy x y in Ok (x, s)
  else if String.eqb units "power_density_per_m" then
    Ok (map (fun v => v * e9) x, map (fun v => v * em9) y)
  else if String.eqb units "photon_flux_per_m" then
    let wl := map (fun v => v * e9) x in
    let! e := each (divide (c * h)) wl in
    let! s := each2 (fun a b => Ok (a * b)) y e in Ok (wl, s)
  else if String.eqb units "power_density_per_eV" then spectral_nm_ev fl h c tb x y
  else if String.eqb units "photon_flux_per_eV" then
    let! r := spectral_nm_ev fl h c tb x y in
    let! s := times_energy (fst r) (snd r) in Ok (fst r, s)
  else if String.eqb units "power_density_per_J" then
    spectral_nm_ev fl h c tb (map (fun v => v / q) x) (map (fun v => v * q) y)
  else if String.eqb units "photon_flux_per_J" then
    let! r := spectral_nm_ev fl h c tb (map (fun v => v / q) x) (map (fun v => v * q) y) in
    let! s := times_energy (fst r) (snd r) in Ok (fst r, s)
  else if String.eqb units "power_density_per_hz" then spectral_nm_hz fl c tb x y
  else if String.eqb units "photon_flux_per_hz" then
    let! r := spectral_nm_hz fl c tb x y in
    let! s := each2 (fun a b => Ok (a * (h * b))) (snd r) x in Ok (fst r, s)
  else Err ValueError.
(** [_get_custom_spectrum], light_source.py:385-446. *)
Definition get_custom (con : R) (o : options) : built :=
  catch_key (
    let! x := opt o "x_data" in let! y := opt o "y_data" in let! u := opt o "input_units" in
    match u with
    | OText units =>
        let! x := as_array x in let! y := as_array y in
        let! r := custom_to_nm units x y in Ok (tabulated con (fst r) (snd r) o)
    | _ => Err ValueError
    end).

(** * The object *)

(** [LightSource.type_of_source], light_source.py:60-67. *)
Definition source_types : list string :=
  ["laser"; "black body"; "standard"; "SMARTS"; "SPECTRAL2"; "custom"]%string.
(** SPECTRAL2 and SMARTS. *)
Context (external : string -> R -> options -> built).

(** The object, light_source.py:84-99 ([ready] and [cache_spectrum] are never read). *)
Record source := mk {
  s_type : string; s_x : option (list R); s_xi : option (list R); s_pd : R;
  s_opts : options; s_units : string; s_conc : R; s_fun : option spectrum_fun }.

(** The builder called by [_update_spectrum_function], light_source.py:163-174. *)
Definition build (ty : string) (con : R) (o : options) : built :=
  if String.eqb ty "standard" then get_standard con o
  else if String.eqb ty "laser" then get_laser con o
  else if String.eqb ty "black body" then get_blackbody con o
  else if String.eqb ty "SPECTRAL2" then external ty con o
  else if String.eqb ty "SMARTS" then external ty con o
  else if String.eqb ty "custom" then get_custom con o
  else Failed ValueError None.
(** [_update_spectrum_function], light_source.py:157-185: a ValueError is printed
    and everything else stays; a printed KeyError makes the spectrum None. *)
Definition update_function (s : source) : source * option exn :=
  match build (s_type s) (s_conc s) (s_opts s) with
  | Built f xi pd o =>
      (mk (s_type s) (s_x s) (Some xi) pd o (s_units s) (s_conc s) (Some f), None)
  | Printed =>
      (mk (s_type s) (s_x s) (s_xi s) (s_pd s) (s_opts s) (s_units s) (s_conc s) None, None)
  | Failed e xi =>
      (mk (s_type s) (s_x s) (match xi with Some l => Some l | None => s_xi s end) (s_pd s)
          (s_opts s) (s_units s) (s_conc s) (s_fun s),
       match e with ValueError => None | _ => Some e end)
  end.

(** [LightSource(source_type, x, output_units, concentration, **kwargs)],
    light_source.py:69-99. *)
Definition light_source (ty : string) (x : option (list R)) (units : string) (con : R) (o : options)
  : res source :=
  if negb (existsb (String.eqb ty) source_types) then Err AssertionError
  else match find_name converters units with
  | None => Err AssertionError
  | Some _ =>
      match update_function (mk ty x None 0 o units con None) with
      | (s, None) => Ok s
      | (_, Some e) => Err e
      end
  end.

(** [spectrum(x, output_units, concentration, **kwargs)], light_source.py:101-129.
    The values returned are the abscissas (None for an unset [self.x]) and the
    spectrum.  Without a spectrum function (None) the converter fails with a
    TypeError; without any abscissa too. *)
Definition spectrum (s : source) (x : option (list R)) (units : option string) (con : option R) (kw : options)
  : source * res (option (list R) * list R) :=
  let x := match x with
           | Some l => Some l
           | None => match s_x s with Some l => Some l | None => s_xi s end
           end in
  let units := match units with Some u => u | None => s_units s end in
  let con := match con with Some r => r | None => s_conc s end in
  match find_name converters units with
  | None => (s, Err AssertionError)
  | Some get =>
      let '(s', e) :=
        match kw with
        | [] => (s, None)
        | _ => update_function (mk (s_type s) (s_x s) (s_xi s) (s_pd s) (update_options (s_opts s) kw)
                                   (s_units s) (s_conc s) (s_fun s))
        end in
      match e with
      | Some e => (s', Err e)
      | None =>
          match s_fun s', x with
          | Some f, Some x => (s', let! y := get f x in Ok (s_x s', map (fun v => v * con) y))
          | _, _ => (s', Err TypeError)
          end
      end
  end.
End Light.
