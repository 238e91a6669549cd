(** Model of the coherent part of solcore/absorption_calculator/tmm_core_vec.py at one
    wavelength (every array operation of the source is elementwise in the wavelength).
    Numbers are exact complex numbers (Coquelicot's [C]); a propagation angle is
    represented by its sine and cosine, which is all the code ever uses of it. *)
From Coq Require Import Reals String List Arith Bool.
From Coquelicot Require Import Complex.
From Verif Require Import Common.
From Coq Require Import List.
Import ListNotations.
Open Scope R_scope.
Open Scope C_scope.
Open Scope list_scope.

(** [numpy.exp] of a complex number (used at tmm_core_vec.py:308-309, 407-408). *)
Definition cexp (z : C) : C := (exp (Re z) * cos (Im z), exp (Re z) * sin (Im z))%R.

(** Principal square root. [cos(arcsin z) = sqrt(1 - z^2)] for numpy's branch of arcsin;
    on the cut (z real, z > 1) [np.lib.scimath.arcsin] returns pi/2 + i b with b > 0, whose
    cosine is -i sinh b: hence the minus sign when the imaginary part is not positive. *)
Definition csqrt (z : C) : C :=
  (sqrt ((Cmod z + Re z) / 2),
   (if Rlt_dec 0 (Im z) then 1 else -1) * sqrt ((Cmod z - Re z) / 2))%R.

(** tmm_core_vec.py:51-62 [snell] and 65-76 [list_snell]: the sine and the cosine of the
    angle in a medium of index [n], given [beta = n_0 sin th_0]. [real_if_close] is the
    identity on exact numbers. *)
Definition sin_in (beta n : C) : C := beta / n.
(** With [sin_in], tmm_core_vec.py:51-62. *)
Definition cos_in (beta n : C) : C := csqrt (1 - sin_in beta n * sin_in beta n).

(** tmm_core_vec.py:79-99 *)
Definition interface_r (pol : string) (n_i n_f c_i c_f : C) : res C :=
  if String.eqb pol "s" then Ok ((n_i * c_i - n_f * c_f) / (n_i * c_i + n_f * c_f))
  else if String.eqb pol "p" then Ok ((n_f * c_i - n_i * c_f) / (n_f * c_i + n_i * c_f))
  else Err ValueError.

(** tmm_core_vec.py:101-117 *)
Definition interface_t (pol : string) (n_i n_f c_i c_f : C) : res C :=
  if String.eqb pol "s" then Ok (2 * n_i * c_i / (n_i * c_i + n_f * c_f))
  else if String.eqb pol "p" then Ok (2 * n_i * c_i / (n_f * c_i + n_i * c_f))
  else Err ValueError.

(** tmm_core_vec.py:120-124 *)
Definition R_from_r (r : C) : R := (Cmod r ^ 2)%R.

(** tmm_core_vec.py:127-147 *)
Definition T_from_t (pol : string) (t n_i n_f c_i c_f : C) : res R :=
  if String.eqb pol "s"
  then Ok (Cmod (t * t)%C * (Re (n_f * c_f)%C / Re (n_i * c_i)%C))%R
  else if String.eqb pol "p"
  then Ok (Cmod (t * t)%C * (Re (n_f * Cconj c_f)%C / Re (n_i * Cconj c_i)%C))%R
  else Err ValueError.

(** tmm_core_vec.py:150-168 *)
Definition power_entering_from_r (pol : string) (r n_i c_i : C) : res R :=
  if String.eqb pol "s"
  then Ok (Re (n_i * c_i * (1 + Cconj r) * (1 - r))%C / Re (n_i * c_i)%C)%R
  else if String.eqb pol "p"
  then Ok (Re (n_i * Cconj c_i * (1 + r) * (1 - Cconj r))%C / Re (n_i * Cconj c_i)%C)%R
  else Err ValueError.

(** tmm_core_vec.py:171-187; [gi], [gf] are the tests [th.real > pi/2 - 1e-6] on the two
    angles. *)
Definition interface_R (pol : string) (n_i n_f c_i c_f : C) (gi gf : bool) : res R :=
  let! r := interface_r pol n_i n_f c_i c_f in
  Ok (R_from_r (if gi || gf then 1 else r)).

(** tmm_core_vec.py:189-202 *)
Definition interface_T (pol : string) (n_i n_f c_i c_f : C) (gi : bool) : res R :=
  let! t := interface_t pol n_i n_f c_i c_f in
  T_from_t pol (if gi then 0 else t) n_i n_f c_i c_f.

(** * 2x2 matrices, tmm_core_vec.py:37-48 ([make_2x2_array]) and [np.matmul] *)
(** For [layer_matrix], tmm_core_vec.py, lines 294-298. *)
Record mat2 : Type := Mat { m00 : C; m01 : C; m10 : C; m11 : C }.
(** For [layer_matrix], tmm_core_vec.py, lines 294-298. *)
Definition mmul (a b : mat2) : mat2 :=
  Mat (m00 a * m00 b + m01 a * m10 b) (m00 a * m01 b + m01 a * m11 b)
      (m10 a * m00 b + m11 a * m10 b) (m10 a * m01 b + m11 a * m11 b).
(** For [layer_matrix], tmm_core_vec.py, lines 294-298. *)
Definition mscale (k : C) (a : mat2) : mat2 := Mat (k * m00 a) (k * m01 a) (k * m10 a) (k * m11 a).
(** For [amplitudes], tmm_core_vec.py, lines 332-341. *)
Definition mapply (a : mat2) (v : C * C) : C * C :=
  (m00 a * fst v + m01 a * snd v, m10 a * fst v + m11 a * snd v).
(** For [mtilde], tmm_core_vec.py, lines 316-324. *)
Definition mid : mat2 := Mat 1 0 0 1.

(** A medium as the loops see it: its index and the cosine of its angle. *)
Notation medium := (C * C)%type.

(** Lines 294-298 with 307-314: the matrix [M_i] of an inner layer, phase [delta],
    index and cosine [x], followed by the medium [y]. *)
Definition layer_matrix (pol : string) (delta : C) (x y : medium) : res mat2 :=
  let! t := interface_t pol (fst x) (fst y) (snd x) (snd y) in
  let! r := interface_r pol (fst x) (fst y) (snd x) (snd y) in
  Ok (mscale (1 / t) (mmul (Mat (cexp (- (Ci * delta))) 0 0 (cexp (Ci * delta))) (Mat 1 r r 1))).

(** Lines 306-314: the matrices of layers 1 .. num_layers-2. *)
Fixpoint layer_matrices (pol : string) (deltas : list C) (ms : list medium) : res (list mat2) :=
  match deltas, ms with
  | d :: ds, x :: ((y :: _) as rest) =>
      let! m := layer_matrix pol d x y in
      let! l := layer_matrices pol ds rest in
      Ok (m :: l)
  | _, _ => Ok []
  end.

(** Lines 316-324: [Mtilde]. *)
Definition mtilde (r01 t01 : C) (l : list mat2) : mat2 :=
  mmul (mscale (1 / t01) (Mat 1 r01 r01 1)) (fold_left mmul l mid).

(** Lines 332-341: the amplitudes just after each interface, media 1 .. num_layers-1.
    The last is (t, 0); going backwards each is [M_i] applied to the next. *)
Fixpoint amplitudes (l : list mat2) (t : C) : list (C * C) :=
  match l with
  | [] => [(t, RtoC 0)]
  | m :: l' => mapply m (hd (t, RtoC 0) (amplitudes l' t)) :: amplitudes l' t
  end.

(** Lines 272-286: phase of a layer of thickness [d], capped when very opaque. *)
Definition kz_of (lam : R) (n c : C) : C := (2 * PI)%R * n * c / lam.
(** With [kz_of], tmm_core_vec.py, lines 272-286. *)
Definition cap_delta (delta : C) : C := if Rlt_dec 100 (Im delta) then (Re delta, 100%R) else delta.
(** With [kz_of], tmm_core_vec.py, lines 272-286. *)
Definition delta_of (lam : R) (x : medium) (d : R) : C := cap_delta (kz_of lam (fst x) (snd x) * d).

(** The returned dictionary, lines 350-353. *)
Record coh_data : Type := CohData {
  cd_pol : string; cd_r : C; cd_t : C; cd_R : R; cd_T : R; cd_power_entering : R;
  cd_vw : list (C * C); cd_kz : list C; cd_cos : list C; cd_n : list C;
  cd_d : list (option R); cd_cos0 : C; cd_lam : R }.

(** Thicknesses are [Some d], or [None] for [np.inf]. An inner layer of infinite
    thickness makes numpy produce nan; the model stops with RuntimeError instead (for [coh_tmm], tmm_core_vec.py:205-353, line 252, line 316). *)
Fixpoint finite_all (l : list (option R)) : res (list R) :=
  match l with
  | [] => Ok []
  | Some d :: r => let! ds := finite_all r in Ok (d :: ds)
  | None :: _ => Err RuntimeError
  end.
(** For [coh_tmm], tmm_core_vec.py:205-353, line 252, line 316. *)
Definition inner {A} (l : list A) : list A := removelast (tl l).
(** For [coh_tmm], tmm_core_vec.py:205-353, line 252, line 316. *)
Definition is_inf (d : option (option R)) : bool :=
  match d with Some None => true | _ => false end.

(** 100 * EPSILON, line 34. *)
Definition epsilon100 : R := (100 * / 2 ^ 52)%R.

(** tmm_core_vec.py:205-353 [coh_tmm]; [s0], [c0] are sin(th_0) and cos(th_0). The size
    test on th_0 (line 252) has no counterpart at one wavelength. With a single
    medium no loop runs and the unbound [i] of line 316 is met (UnboundLocalError); with
    none [d_list[0]] is an IndexError. *)
Definition coh_tmm (pol : string) (ns : list C) (ds : list (option R)) (s0 c0 : C) (lam : R)
  : res coh_data :=
  if negb (length ns =? length ds)%nat then Err ValueError
  else if (length ds =? 0)%nat then Err IndexError
  else if negb (is_inf (hd_error ds) && is_inf (hd_error (rev ds))) then Err ValueError
  else match ns with
  | n0 :: ((n1 :: _) as ns') =>
      let beta := n0 * s0 in
      if Rlt_dec epsilon100 (Rabs (Im beta)) then Err ValueError
      else
        let cs := map (cos_in beta) ns in
        let c00 := cos_in beta n0 in
        let c1 := cos_in beta n1 in
        let ms := map (fun n => (n, cos_in beta n)) ns' in
        let! dd := finite_all (inner ds) in
        let deltas := map (fun xd => delta_of lam (fst xd) (snd xd)) (combine ms dd) in
        let! t01 := interface_t pol n0 n1 c00 c1 in
        let! r01 := interface_r pol n0 n1 c00 c1 in
        let! l := layer_matrices pol deltas ms in
        let m := mtilde r01 t01 l in
        let r := m10 m / m00 m in
        let t := 1 / m00 m in
        let nf := last ns n0 in
        let! T := T_from_t pol t n0 nf c0 (cos_in beta nf) in
        let! pe := power_entering_from_r pol r n0 c0 in
        Ok (CohData pol r t (R_from_r r) T pe ((RtoC 0, RtoC 0) :: amplitudes l t)
              (map (fun n => kz_of lam n (cos_in beta n)) ns) cs ns ds c0 lam)
  | [n0] => if Rlt_dec epsilon100 (Rabs (Im (n0 * s0))) then Err ValueError else Err UnboundLocalError
  | [] => Err IndexError
  end.

(** tmm_core_vec.py:355-360 [coh_tmm_reverse]. *)
Definition coh_tmm_reverse (pol : string) (ns : list C) (ds : list (option R)) (s0 c0 : C) (lam : R)
  : res coh_data :=
  match ns with
  | [] => Err IndexError
  | n0 :: _ =>
      let beta := n0 * s0 in
      let nf := last ns n0 in
      coh_tmm pol (rev ns) (rev ds) (sin_in beta nf) (cos_in beta nf) lam
  end.

(** tmm_core_vec.py:377-387 [unpolarized_RT]. *)
Definition unpolarized_RT (ns : list C) (ds : list (option R)) (s0 c0 : C) (lam : R) : res (R * R) :=
  let! s := coh_tmm "s" ns ds s0 c0 lam in
  let! p := coh_tmm "p" ns ds s0 c0 lam in
  Ok ((cd_R s + cd_R p) / 2, (cd_T s + cd_T p) / 2)%R.

(** * tmm_core_vec.py:390-427 [position_resolved] in one layer *)
(** Lines 407-408. *)
Definition E_f (v kz : C) (z : R) : C := v * cexp (Ci * kz * z).
(** With [E_f], tmm_core_vec.py, lines 407-408. *)
Definition E_b (w kz : C) (z : R) : C := w * cexp (- (Ci * kz * z)).
(** Lines 412-416; another polarisation leaves [poyn] unbound. *)
Definition poyn (pol : string) (n c kz v w n_0 c_0 : C) (z : R) : res R :=
  let f := E_f v kz z in let b := E_b w kz z in
  if String.eqb pol "s" then Ok (Re (n * c * Cconj (f + b) * (f - b))%C / Re (n_0 * c_0)%C)%R
  else if String.eqb pol "p"
  then Ok (Re (n * Cconj c * (f + b) * Cconj (f - b))%C / Re (n_0 * Cconj c_0)%C)%R
  else Err UnboundLocalError.
(** Lines 419-424. *)
Definition absor (pol : string) (n c kz v w n_0 c_0 : C) (z : R) : res R :=
  let f := E_f v kz z in let b := E_b w kz z in
  if String.eqb pol "s"
  then Ok (Im (n * c * kz * (Cmod (f + b)%C ^ 2)%R)%C / Re (n_0 * c_0)%C)%R
  else if String.eqb pol "p"
  then Ok (Im (n * Cconj c * (kz * (Cmod (f - b)%C ^ 2)%R - Cconj kz * (Cmod (f + b)%C ^ 2)%R))%C
           / Re (n_0 * Cconj c_0)%C)%R
  else Err UnboundLocalError.
(** The call [position_resolved(i, z, data)['poyn']] (for [powers], tmm_core_vec.py, lines 630-635). *)
Definition poyn_in (d : coh_data) (i : nat) (z : R) : res R :=
  let v := nth i (cd_vw d) (RtoC 0, RtoC 0) in
  poyn (cd_pol d) (nth i (cd_n d) (RtoC 0)) (nth i (cd_cos d) (RtoC 0)) (nth i (cd_kz d) (RtoC 0))
       (fst v) (snd v) (hd (RtoC 0) (cd_n d)) (cd_cos0 d) z.

(** * tmm_core_vec.py:616-643 [absorp_in_each_layer] *)
(** For [powers], tmm_core_vec.py, lines 630-635. *)
Fixpoint mapRR {A B} (f : A -> res B) (l : list A) : res (list B) :=
  match l with
  | [] => Ok []
  | x :: r => let! y := f x in let! ys := mapRR f r in Ok (y :: ys)
  end.
(** Lines 630-635: with two media the entry 1 is first set to power_entering and then
    overwritten by T. *)
Definition powers (d : coh_data) : res (list R) :=
  let n := length (cd_n d) in
  if (n <=? 2)%nat then Ok [1%R; cd_T d]
  else let! mid_ := mapRR (fun i => poyn_in d i 0%R) (seq 2 (n - 3)) in
       Ok (1%R :: cd_power_entering d :: mid_ ++ [cd_T d]).
(** Line 637: [-np.diff], line 638 the last entry. *)
Fixpoint drops (l : list R) : list R :=
  match l with
  | [] => []
  | [x] => [x]
  | x :: ((y :: _) as r) => (x - y)%R :: drops r
  end.
(** Line 641. *)
Definition clamp0 (x : R) : R := if Rlt_dec x 0 then 0%R else x.
(** With [clamp0], tmm_core_vec.py, line 641. *)
Definition absorp_in_each_layer (d : coh_data) : res (list R) :=
  let! p := powers d in Ok (map clamp0 (drops p)).
