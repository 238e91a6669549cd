(** Model of solcore/light_source/spectral2.py: the SPCTRAL2 spectrum of the sun at a place
    and time.  Numbers are ideal reals; NaN, which numpy gives for a power of a negative
    number, is [None]. *)
From Coq Require Import Reals String List Bool Arith ZArith.
From Verif Require Import Common NpModel.
From Coq Require Import List.
Import ListNotations.
Open Scope R_scope.
Open Scope list_scope.

(** The python datetime: year, month and day from 1, seconds since midnight (microseconds
    are ignored by [.seconds], line 94). *)
Record datetime := { year : Z; month : nat; day : nat; seconds : Z }.
(** Gregorian leap years and the lengths of the months, as in python's datetime (for [day_number], spectral2.py, lines 91). *)
Definition leap (y : Z) : bool := ((y mod 4 =? 0)%Z && (negb (y mod 100 =? 0)%Z || (y mod 400 =? 0)%Z))%bool.
(** For [day_number], spectral2.py, lines 91. *)
Definition month_length (y : Z) (m : nat) : nat :=
  match m with
  | 4 | 6 | 9 | 11 => 30
  | 2 => if leap y then 29 else 28
  | _ => 31
  end%nat.
(** [time_since_new_years.days], lines 91 and 95. *)
Definition day_number (d : datetime) : nat :=
  (list_sum (map (month_length (year d)) (seq 1 (month d - 1))) + (day d - 1))%nat.

(** The entries of the aod_model option: a name or two lists of coefficients (for [state], spectral2.py, lines 41-61 and 79). *)
Inductive aod := Name (s : string) | Coefficients (c d : list R).
(** The state object, lines 41-61 and 79-87. *)
Record state := { latitude : R; longitude : R; dateAndTime : datetime; aod_model : aod;
  pressure : R; humidity : R; ozone : R; turbidity : R; precipwater : R }.
(** One line of SPCTRAL_si_units.txt as used, lines 17-25: wavelength in m, irradiance outside the
    atmosphere, absorption of water and ozone (divided by 100) and of the uniform gases. *)
Record row := { wavelength : R; am_zero : R; water : R; ozone_abs : R; gas : R }.
(** Lines 20-25: the rows of the file. *)
Definition load (l : list (R * R * R * R * R)) : list row :=
  map (fun '(w, a, wa, oz, g) => {| wavelength := w; am_zero := a; water := wa / 100; ozone_abs := oz / 100; gas := g |}) l.

(** Lines 11-14, in minutes. *)
Definition equation_of_time (a : R) : R :=
  229.18 * (0.000075 + 0.001868 * cos a - 0.032077 * sin a - 0.014615 * cos (2 * a) - 0.040849 * sin (2 * a)).
(** Line 100. *)
Definition day_angle (d : datetime) : R := 2 * PI * (INR (day_number d) - 1) / 365.
(** python's [int] of a float (for [hour_angle_degrees], spectral2.py, lines 92-94, 98 and 101-103). *)
Definition trunc (x : R) : R := if Rle_dec 0 x then IZR (Int_part x) else - IZR (Int_part (- x)).
(** Lines 92-94, 98 and 101-103, in degrees. *)
Definition hour_angle_degrees (s : state) : R :=
  let hours := IZR (seconds (dateAndTime s)) / 3600 in
  let lon := longitude s / PI * 180 in
  15 * (hours + equation_of_time (day_angle (dateAndTime s)) / 60 + (trunc (lon / 15) * 15 - lon) * 4 / 60 + 12) - 360.
(** Lines 107-115. *)
Definition declination (a : R) : R :=
  0.006918 - 0.399912 * cos a + 0.070257 * sin a - 0.006758 * cos (2 * a) + 0.000907 * sin (2 * a) - 0.002697 * cos (3 * a) + 0.00148 * sin (3 * a).
(** Lines 117-123. *)
Definition distance_factor (a : R) : R :=
  1.00011 + 0.034221 * cos a + 0.001280 * sin a + 0.000719 * cos (2 * a) + 0.000077 * sin (2 * a).
(** The argument of arccos, lines 105 and 125-128. *)
Definition cos_zenith (s : state) : R :=
  let d := declination (day_angle (dateAndTime s)) in
  cos d * cos (latitude s) * cos (hour_angle_degrees s / 180 * PI) + sin d * sin (latitude s).
(** Lines 125-130, in degrees. *)
Definition zenith_degrees (s : state) : R := acos (cos_zenith s) / PI * 180.

(** [pow] with exponent -1.253, lines 138-139: NaN for a negative base; 0 gives inf, whose
    reciprocal is 0. *)
Definition relative_am (s : state) : option R :=
  let u := 93.885 - zenith_degrees s in
  if Rlt_dec u 0 then None
  else if Req_EM_T u 0 then Some 0
  else Some (1 / (cos (acos (cos_zenith s)) + 0.15 * Rpower u (- 1.253))).
(** Line 140. *)
Definition pressure_corrected (s : state) (am : R) : R := am * (pressure s / 101325.33538686013).
(** Lines 141-142. *)
Definition ozone_am (s : state) : R := (1 + 22 / 6370) / sqrt (cos (acos (cos_zenith s)) ^ 2 + 2 * (22 / 6370)).

(** Lines 144-157: the second branch tests for rural again, so nothing is assigned for
    urban. *)
Definition coefficients (m : aod) : res (list R * list R) :=
  match m with
  | Name "rural" => Ok ([0.581; 16.823; 17.539], [0.8547; 78.696; 0; 64.458])
  | Name "maritime" => Ok ([0.1134; 0.8941; 1.0796], [0.04435; 1.6048; 0; 1.5298])
  | Name "tropospheric" => Ok ([0.6786; 13.899; 13.313], [1.8379; 14.912; 0; 5.96])
  | Coefficients c d => Ok (c, d)
  | Name _ => Err UnboundLocalError
  end%string.
(** The assertion of line 89. *)
Definition known (m : aod) : bool :=
  match m with
  | Name s => existsb (String.eqb s) ["rural"; "urban"; "maritime"; "tropospheric"]%string
  | Coefficients _ _ => false
  end.
(** Lines 159-164 (the lists have the entries that are used). *)
Definition alphas (s : state) (cd : list R * list R) : R * R :=
  let x := cos (humidity s * PI / 2) in let c i := nth i (fst cd) 0 in let d i := nth i (snd cd) 0 in
  ((c 0%nat + c 1%nat * x) / (1 + c 2%nat * x), (d 0%nat + d 1%nat * x + d 2%nat * x ^ 2) / (1 + d 3%nat * x)).

(** The five attenuation coefficients for one row, lines 166-181. *)
Definition um (r : row) : R := wavelength r * 10 ^ 6.
(** With [um], spectral2.py, lines 166-181. *)
Definition rayleigh (r : row) (pam : R) : R := exp (- pam / (um r ^ 4 * (115.6406 - 1.335 / um r ^ 2))).
(** With [um], spectral2.py, lines 166-181. *)
Definition aerosol (s : state) (al : R * R) (r : row) (pam : R) : R :=
  if Rle_dec (um r) 0.5 then exp (- pam * turbidity s * Rpower 2 (snd al - fst al) * Rpower (um r) (- fst al))
  else exp (- pam * turbidity s * Rpower (um r) (- snd al)).
(** With [um], spectral2.py, lines 166-181. *)
Definition vapour (s : state) (r : row) (am : R) : R :=
  exp (- (0.2385 * precipwater s * water r * am) / Rpower (1 + 20.07 * precipwater s * water r * am) 0.45).
(** With [um], spectral2.py, lines 166-181. *)
Definition ozone_coeff (s : state) (r : row) (oam : R) : R := exp (- ozone_abs r * ozone s * oam).
(** With [um], spectral2.py, lines 166-181. *)
Definition mixed (r : row) (pam : R) : R := exp (- 1.41 * gas r * pam / Rpower (1 + 118.93 * gas r * pam) 0.45).

(** The irradiance per m of one row, lines 183-185. *)
Definition irradiance (s : state) (al : R * R) (r : row) : option R :=
  match relative_am s with
  | None => None
  | Some am =>
      let pam := pressure_corrected s am in
      Some (am_zero r * distance_factor (day_angle (dateAndTime s)) * rayleigh r pam * aerosol s al r pam * vapour s r am * ozone_coeff s r (ozone_am s) * mixed r pam)
  end.
(** [nan_to_num], lines 187-188. *)
Definition nan_to_num (x : option R) : R := match x with Some v => v | None => 0 end.
(** [calculate_spectrum_spectral2] with suppress_nan, lines 64-216: wavelengths and irradiance
    per m.  The file is a parameter. *)
Definition spectrum (file : list row) (s : state) : res (list R * list R) :=
  if known (aod_model s) then
    let! cd := coefficients (aod_model s) in
    Ok (map wavelength file, map (fun r => nan_to_num (irradiance s (alphas s cd) r)) file)
  else Err AssertionError.
(** Lines 192-197: the pair that is returned with power_density_in_nm. *)
Definition spectrum_nm (file : list row) (s : state) : res (list R * list R) :=
  let! wy := spectrum file s in Ok (map (fun x => x * 10 ^ 9) (fst wy), map (fun x => / 10 ^ 9 * x) (snd wy)).
(** Line 208. *)
Definition power_density (file : list row) (s : state) : res R :=
  let! wy := spectrum file s in Ok (np_trapz (snd wy) (fst wy)).
(** Lines 203-205: from eV to J. *)
Definition joules (e y : list R) : list R * list R := (map (fun x => x * (16 / 10 ^ 20)) e, map (fun x => x / (16 / 10 ^ 20)) y).
