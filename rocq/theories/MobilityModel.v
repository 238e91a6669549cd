(** Model of [solcore/material_data/mobility.py] and of its table
    [solcore/material_data/mobility_parameters.json].  In the comments M is the first file
    and J the second. *)
From Coq Require Import Reals ZArith String List Bool.
From Verif Require Import Common DetBalModel.
Import ListNotations.
Open Scope R_scope.
Open Scope string_scope.
Open Scope list_scope.

(** [kb], M:17, in eV/K. *)
Definition kb_eV : R := 86173324 / 10 ^ 12.
(** [Log], M:18. *)
Definition log10 (x : R) : R := ln x / ln 10.
(** [10 ** y], M:96 and others. *)
Definition exp10 (y : R) : R := Rpower 10 y.

(** The six parameters of a carrier type, M:68-73. *)
Record par := Par { muMin : R; muMax : R; Nref : R; pl : R; pt1 : R; pt2 : R }.
(** The band parameters of a binary, J (fourth item of a binary) (for [item], M:52-54, 87-89). *)
Record band := Band { es : R; einf : R; EgG : R; EgX : R; EgL : R; mnG : R; mnX : R; mnL : R }.
(** The fourth item of an alloy: bowings and, where there is one, the composition of the
    measured alloy (for [item], M:52-54, 87-89). *)
Record bow := Bow { bG : R; bX : R; bL : R; bx : option R }.
(** An entry of the table: its first item (2 binary, 3 ternary, 4 quaternary), the
    parameters of electrons and of holes ([None] for the empty dictionary), the fourth
    item and the two parents. *)
Record entry := Entry { e_kind : Z; e_n : option par; e_p : option par; e_band : option band;
                        e_bow : option bow; e_parents : option (string * string) }.
(** For [item], M:52-54, 87-89. *)
Definition table := list (string * entry).

(** [data[name]], M:52-54, 87-89 and others. *)
Definition item (data : table) (name : string) : res entry :=
  match find (fun e => String.eqb (fst e) name) data with Some e => Ok (snd e) | None => Err KeyError end.
(** [x[key]] of an optional part: an absent item of the list is an IndexError, an empty
    dictionary a KeyError; one exception stands for both (for [pars], M:47-48). *)
Definition need {A} (o : option A) : res A := match o with Some a => Ok a | None => Err KeyError end.
(** [data[name][i]] for i = 1 (electrons) or 2 (holes), M:47-48. *)
Definition pars (data : table) (holes : bool) (name : string) : res par :=
  let! e := item data name in need (if holes then e_p e else e_n e).

(** M:26-29.  [N] >= 0, [T] > 0 and [l] > 0 in what follows: a negative base gives a
    complex number in Python and [T] = 0 a ZeroDivisionError. *)
Definition mobility_low_field (N muMin muMax Nref l t1 t2 T : R) : R :=
  muMin + (muMax * Rpower (300 / T) t1 - muMin) / (1 + rpow (N / (Nref * Rpower (300 / T) t2)) l).

(** M:387-388. *)
Definition interpolate_parameter_linear (x AC BC ABC : R) : R := x * AC + (1 - x) * BC - ABC * x * (1 - x).

(** M:391-402, with x0 = 1 and x2 = 0 as in every call. *)
Definition interpolate_parameter_quad (x y0 y1 y2 x1 : R) : R :=
  let x0 := 1 in
  let x2 := 0 in
  let dem0 := (x0 - x1) * (x0 - x2) in
  let dem1 := (x1 - x0) * (x1 - x2) in
  let dem2 := (x2 - x0) * (x2 - x1) in
  let nom0 := (x - x1) * (x - x2) in
  let nom1 := (x - x0) * (x - x2) in
  let nom2 := (x - x0) * (x - x1) in
  y0 * nom0 / dem0 + y1 * nom1 / dem1 + y2 * nom2 / dem2.

(** M:405-411. *)
Definition interpolate_epsilon (x AC BC : R) : R :=
  let ratioAC := (AC - 1) / (AC + 2) in
  let ratioBC := (BC - 1) / (BC + 2) in
  let k := interpolate_parameter_linear x ratioAC ratioBC 0 in
  (2 * k + 1) / (1 - k).

(** M:359-376. *)
Definition Rd (EgG EgX EgL mnG mnX mnL T : R) : R :=
  let RX := Rpower (mnX / mnG) (3 / 2) * exp ((EgG - EgX) / (kb_eV * T)) in
  let RL := Rpower (mnL / mnG) (3 / 2) * exp ((EgG - EgL) / (kb_eV * T)) in
  1 / (1 + RX + RL).

(** M:379-384. *)
Definition mind (EgX EgL mnX mnL T : R) : R :=
  let RX := exp ((EgL - EgX) / (kb_eV * T)) in
  let fraction := 1 / (1 + RX) in
  mnL * fraction + mnX * (1 - fraction).

(** The loop over the band parameters, M:135-142, 203-210, 270-277. *)
Definition new_band (x : R) (p0 p2 : band) (b : bow) : band :=
  Band (interpolate_epsilon x (es p0) (es p2)) (interpolate_epsilon x (einf p0) (einf p2))
       (interpolate_parameter_linear x (EgG p0) (EgG p2) (bG b))
       (interpolate_parameter_linear x (EgX p0) (EgX p2) (bX b))
       (interpolate_parameter_linear x (EgL p0) (EgL p2) (bL b))
       (interpolate_parameter_linear x (mnG p0) (mnG p2) 0)
       (interpolate_parameter_linear x (mnX p0) (mnX p2) 0)
       (interpolate_parameter_linear x (mnL p0) (mnL p2) 0).
(** The fraction of electrons in the direct valley, M:155, 222, 292. *)
Definition direct (b : band) (T : R) : R := Rd (EgG b) (EgX b) (EgL b) (mnG b) (mnX b) (mnL b) T.
(** The dielectric factor of M:149-150, 213-214, 286-287: the code multiplies by (-1)
    where the model of the article has the power -1. *)
Definition polar (p b : band) : R :=
  (einf p * (-1) - es p * (-1)) / (einf b * (-1) - es b * (-1)).

(** The parameters of the alloy interpolated quadratically, M:93-99, 118-124. *)
Definition quad_pars (x xi : R) (p0 p1 p2 : par) : par :=
  Par (interpolate_parameter_quad x (muMin p0) (muMin p1) (muMin p2) xi)
      (interpolate_parameter_quad x (muMax p0) (muMax p1) (muMax p2) xi)
      (exp10 (interpolate_parameter_quad x (log10 (Nref p0)) (log10 (Nref p1)) (log10 (Nref p2)) xi))
      (interpolate_parameter_quad x (pl p0) (pl p1) (pl p2) xi)
      (interpolate_parameter_quad x (pt1 p0) (pt1 p1) (pt1 p2) xi)
      (interpolate_parameter_quad x (pt2 p0) (pt2 p1) (pt2 p2) xi).

Section Alloys.
Context (data : table).

(** [data[name][3]["x"]], M:91, 116, 176, 243. *)
Definition measured (name : string) : res R :=
  let! e := item data name in let! b := need (e_bow e) in need (bx b).
(** [data[name][3]] of a binary and of an alloy, M:130-132, 198-200, 265-267. *)
Definition bands (name : string) : res band := let! e := item data name in need (e_band e).
(** With [bands], M:130-132, 198-200, 265. *)
Definition bows (name : string) : res bow := let! e := item data name in need (e_bow e).

(** M:79-101. *)
Definition calculate_InGaAs (x : R) (holes : bool) : res par :=
  let! p0 := pars data holes "InAs" in
  let! p1 := pars data holes "InGaAs" in
  let! p2 := pars data holes "GaAs" in
  let! xi := measured "InGaAs" in
  Ok (quad_pars x xi p0 p1 p2).

(** M:104-161. *)
Definition calculate_InGaP (x : R) (holes : bool) (T : R) : res par :=
  let! p0 := pars data holes "InP" in
  let! p1 := pars data holes "GaInP" in
  let! p2 := pars data holes "GaP" in
  let! xi := measured "GaInP" in
  let d := quad_pars x xi p0 p1 p2 in
  if holes then Ok d
  else
    let! p0b := bands "InP" in
    let! p1b := bows "GaInP" in
    let! p2b := bands "GaP" in
    let nb := new_band x p0b p2b p1b in
    let muDmax := (x - xi) / (1 - xi) * muMax p0 + (x - 1) / (xi - 1) * muMax p1 in
    let muDmin := (x - xi) / (1 - xi) * muMin p0 + (x - 1) / (xi - 1) * muMin p1 in
    let mind_alloy := mind (EgX nb) (EgL nb) (mnX nb) (mnL nb) T in
    let C := Rpower (mnX p2b / mind_alloy) (3 / 2) * polar p2b nb in
    let f := direct nb T in
    Ok (Par (f * muDmin + (1 - f) * (C * muMin p2)) (f * muDmax + (1 - f) * (C * muMax p2))
            (Nref d) (pl d) (pt1 d) (pt2 d)).

(** M:164-228. *)
Definition calculate_AlGaAs (x : R) (holes : bool) (T : R) : res par :=
  let! p0 := pars data holes "AlAs" in
  let! p1 := pars data holes "AlGaAs" in
  let! p2 := pars data holes "GaAs" in
  let! xi := measured "AlGaAs" in
  let t1 := interpolate_parameter_linear x (pt1 p0) (pt1 p2) 0 / (1 + x * (1 - x)) in
  if holes then
    let d := quad_pars x xi p0 p1 p2 in
    Ok (Par (muMin d) (muMax d) (Nref d) (pl d) t1 (pt2 p2))
  else
    let! p0b := bands "AlAs" in
    let! p1b := bows "AlGaAs" in
    let! p2b := bands "GaAs" in
    let nb := new_band x p0b p2b p1b in
    let C := Rpower (mnG p2b / mnG nb) (3 / 2) * polar p2b nb in
    let f := direct nb T in
    Ok (Par (f * (C * muMin p2) + (1 - f) * muMin p1) (f * (C * muMax p2) + (1 - f) * muMax p1)
            (exp10 (interpolate_parameter_linear x (log10 (Nref p0)) (log10 (Nref p2)) 0))
            (interpolate_parameter_linear x (pl p0) (pl p2) 0) t1
            (interpolate_parameter_linear x (pt2 p0) (pt2 p2) 0)).

(** M:231-298. *)
Definition calculate_InAlAs (x : R) (holes : bool) (T : R) : res par :=
  let! p0 := pars data holes "InAs" in
  let! p1 := pars data holes "InAlAs" in
  let! p2 := pars data holes "AlAs" in
  let! xi := measured "InAlAs" in
  let t1 := interpolate_parameter_linear x (pt1 p0) (pt1 p2) 0 / (1 + x * (1 - x)) in
  let t2 := interpolate_parameter_linear x (pt2 p0) (pt2 p2) 0 in
  if holes then
    Ok (Par (interpolate_parameter_linear x (muMin p0) (muMin p2) 0 / (1 + x * (1 - x)))
            (interpolate_parameter_linear x (muMax p0) (muMax p2) 0)
            (exp10 (interpolate_parameter_linear x (log10 (Nref p0)) (log10 (Nref p2)) 0))
            (interpolate_parameter_linear x (pl p0) (pl p2) 0) t1 t2)
  else
    let d := quad_pars x xi p0 p1 p2 in
    let! p0b := bands "InAs" in
    let! p1b := bows "InAlAs" in
    let! p2b := bands "AlAs" in
    let nb := new_band x p0b p2b p1b in
    let f1 := (x - xi) / (1 - xi) in
    let f2 := (x - 1) / (xi - 1) in
    let muDmax := Rpower (muMax p0) f1 * Rpower (muMax p1) f2 in
    let muDmin := Rpower (muMin p0) f1 * Rpower (muMin p1) f2 in
    let mind_alloy := mind (EgX nb) (EgL nb) (mnX nb) (mnL nb) T in
    let C := Rpower (mnX p2b / mind_alloy) (3 / 2) * polar p2b nb in
    let f := direct nb T in
    Ok (Par (f * muDmin + (1 - f) * (C * muMin p2)) (f * muDmax + (1 - f) * (C * muMax p2))
            (Nref d) (pl d) t1 t2).

(** M:301-329. *)
Definition calculate_InGaAsP (x y : R) (holes : bool) (T : R) : res par :=
  let! p0 := calculate_InGaP x holes T in
  let! p1 := calculate_InGaAs x holes in
  let w := 1 + 6 * y * (1 - y) in
  let lo := interpolate_parameter_linear y (muMin p0) (muMin p1) 0 in
  Ok (Par (if holes then lo else lo / w)
          (interpolate_parameter_linear y (muMax p0) (muMax p1) 0 / w)
          (exp10 (interpolate_parameter_linear y (log10 (Nref p0)) (log10 (Nref p1)) 0))
          (interpolate_parameter_linear y (pl p0) (pl p1) 0)
          (interpolate_parameter_linear y (pt1 p0) (pt1 p1) 0 / (1 + y * (1 - y)))
          (interpolate_parameter_linear y (pt2 p0) (pt2 p1) 0)).

(** M:332-356. *)
Definition calculate_General (material : string) (x : R) (holes : bool) : res par :=
  let! e := item data material in
  let! pp := need (e_parents e) in
  let! p0 := pars data holes (fst pp) in
  let! p1 := pars data holes (snd pp) in
  Ok (Par (interpolate_parameter_linear x (muMin p0) (muMin p1) 0)
          (interpolate_parameter_linear x (muMax p0) (muMax p1) 0)
          (exp10 (interpolate_parameter_linear x (log10 (Nref p0)) (log10 (Nref p1)) 0))
          (interpolate_parameter_linear x (pl p0) (pl p1) 0)
          (interpolate_parameter_linear x (pt1 p0) (pt1 p1) 0)
          (interpolate_parameter_linear x (pt2 p0) (pt2 p1) 0)).

(** The choice of M:47-66. *)
Definition parameters_of (material : string) (holes : bool) (x y T : R) : res par :=
  match item data material with
  | Err _ => pars data holes "GaAs"
  | Ok e =>
      if Z.eqb (e_kind e) 2 then need (if holes then e_p e else e_n e)
      else if String.eqb material "InGaAs" then calculate_InGaAs x holes
      else if String.eqb material "GaInP" then calculate_InGaP x holes T
      else if String.eqb material "AlGaAs" then calculate_AlGaAs x holes T
      else if String.eqb material "InAlAs" then calculate_InAlAs x holes T
      else if String.eqb material "InGaAsP" then calculate_InGaAsP x y holes T
      else calculate_General material x holes
  end.

(** M:32-76: [N] in m-3, result in m2/Vs. *)
Definition calculate_mobility (material : string) (holes : bool) (N x y T : R) : res R :=
  let! d := parameters_of material holes x y T in
  Ok (mobility_low_field (N / 10 ^ 6) (muMin d) (muMax d) (Nref d) (pl d) (pt1 d) (pt2 d) T / 10000).
End Alloys.

(** The attributes [electron_mobility] and [hole_mobility] of a material when the
    parameter system has none, material_system.py:318-327: neither the temperature nor a
    second composition is passed on. *)
Definition material_mobility (data : table) (material : string) (holes : bool) (Nd Na x T : R) : res R :=
  calculate_mobility data material holes (if holes then Na else Nd) x 0 300.

(** A number written with an exponent, J:1-283. *)
Definition p10 (a : R) (n : nat) : R := a * 10 ^ n.
(** An entry of the table for a binary, J:1-283. *)
Definition binary (n p : par) (b : option band) : entry := Entry 2 (Some n) (Some p) b None None.
(** An entry of the table for a ternary, J:1-283. *)
Definition ternary (n p : option par) (b : bow) (a c : string) : entry := Entry 3 n p None (Some b) (Some (a, c)).
(** The whole table, J:1-283. *)
Definition mobility_parameters : table :=
  [ ("Si", binary (Par 92 1360 (p10 1.3 17) 0.91 0 0) (Par 48 450 (p10 6.3 16) 0.76 0 0) None);
    ("AlAs", binary (Par 10 400 (p10 5.46 17) 1 2.1 3) (Par 10 200 (p10 3.846 17) 0.488 2.24 3)
                    (Some (Band 10.06 8.16 2.799 2.163 2.469 0.150 0.71 0.66)));
    ("GaAs", binary (Par 500 9400 (p10 6 16) 0.394 2.1 3) (Par 20 491.5 (p10 1.48 17) 0.38 2.2 3)
                    (Some (Band 12.90 10.92 1.422 1.899 1.707 0.065 0.85 0.56)));
    ("InAs", binary (Par 1000 34000 (p10 1.1 18) 0.32 1.57 3) (Par 20 530 (p10 1.1 17) 0.46 2.3 3)
                    (Some (Band 15.15 12.25 0.350 2.140 1.450 0.023 0.64 0.29)));
    ("InP", binary (Par 400 5200 (p10 3 17) 0.47 2 3.25) (Par 10 170 (p10 4.87 17) 0.62 2.0 3)
                   (Some (Band 12.61 9.61 1.351 2.200 2.000 0.079 0.676 0.655)));
    ("GaP", binary (Par 10 152 (p10 4.4 18) 0.8 1.6 0.71) (Par 10 147 (p10 1 18) 0.85 1.98 0)
                   (Some (Band 11.10 9.08 2.760 2.261 2.630 0.126 0.82 0.756)));
    ("InAlAs", ternary (Some (Par 800 4800 (p10 3 16) 1.10 1.57 3)) (Some (Par 20 530 (p10 1.1 17) 0.46 2.3 3))
                       (Bow 0.304 0.713 0.617 (Some 0.52)) "InAs" "AlAs");
    ("AlGaAs", ternary (Some (Par 10 400 (p10 5.46 17) 1 2.1 3)) (Some (Par 5 240 (p10 1 17) 0.324 2.1 3))
                       (Bow 0 0.143 0.150 (Some 0.3)) "AlAs" "GaAs");
    ("InGaAs", ternary (Some (Par 300 14000 (p10 1.3 17) 0.48 1.59 3.68)) (Some (Par 10 320 (p10 4.9 17) 0.403 1.59 3))
                       (Bow 0.42 0.509 1.087 (Some 0.53)) "InAs" "GaAs");
    ("GaInP", ternary (Some (Par 400 4300 (p10 2 16) 0.7 1.66 1.95)) (Some (Par 15 150 (p10 1.5 17) 0.8 2 1.47))
                      (Bow 0.67 0.17 0.41 (Some 0.49)) "InP" "GaP");
    ("GaAsP", ternary None None (Bow 0.21 0.21 0.42 None) "GaP" "GaAs");
    ("InAsP", ternary None None (Bow 0.286 0.187 0.115 None) "InP" "InAs");
    ("InGaAsP", Entry 4 None None None None (Some ("InGaAs", "InAsP"))) ].
