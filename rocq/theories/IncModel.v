(** Model of the partly incoherent transfer matrix method of
    solcore/absorption_calculator/tmm_core_vec.py (lines 757-1124) at one wavelength, on top
    of [inc_group_layers] (TmmLayersModel) and [coh_tmm] (TmmModel). *)
From Coq Require Import Reals String List Arith Bool.
From Coquelicot Require Import Complex.
From Verif Require Import Common TmmModel TmmLayersModel.
From Coq Require Import List.
Import ListNotations.
Open Scope R_scope.
Open Scope list_scope.

(** The test [th.real > (np.pi / 2) - 1e-6] of lines 183-184 and 200 on the angle with sine
    [s] and cosine [c]. Writing th = a + ib, Re s = sin a cosh b and Re c = cos a cosh b, and
    [arcsin] returns -pi/2 <= a <= pi/2, so the test is Re c < tan 1e-6 * Re s. *)
Definition grazing (s c : C) : bool := if Rlt_dec (Re c) (tan (/ 10 ^ 6) * Re s) then true else false.

(** The four entries of [R_list] and [T_list] that join an incoherent layer to the next one:
    forwards (i, i+1) and backwards (i+1, i). *)
Record cpl : Type := Cpl { c_R : R; c_T : R; c_R' : R; c_T' : R }.
(** Lines 862-881, the next layer is incoherent as well. *)
Definition couple_interface (pol : string) (beta n1 n2 : C) : res cpl :=
  let c1 := cos_in beta n1 in let c2 := cos_in beta n2 in
  let g1 := grazing (sin_in beta n1) c1 in let g2 := grazing (sin_in beta n2) c2 in
  let! r := interface_R pol n1 n2 c1 c2 g1 g2 in
  let! t := interface_T pol n1 n2 c1 c2 g1 in
  let! r' := interface_R pol n2 n1 c2 c1 g2 g1 in
  let! t' := interface_T pol n2 n1 c2 c1 g2 in
  Ok (Cpl r t r' t').
(** Lines 882-890, a coherent stack lies between. *)
Definition couple_stack (d b : coh_data) : cpl := Cpl (cd_R d) (cd_T d) (cd_R b) (cd_T b).
(** With [couple_stack], tmm_core_vec.py, lines 882-890. *)
Definition no_data : coh_data :=
  CohData "" (RtoC 0) (RtoC 0) 0 0 0 [] [] [] [] [] (RtoC 0) 0.
(** The loop of lines 859-890 over [all_from_inc[i]] and [stack_from_inc[i + 1]]. *)
Fixpoint couplings (pol : string) (beta : C) (ns : list C) (coh bcoh : list coh_data)
  (afi : list nat) (sfi : list (option nat)) : res (list cpl) :=
  match afi, sfi with
  | a :: afi', s :: sfi' =>
      let! c := match s with
                | None => couple_interface pol beta (nth a ns (RtoC 0)) (nth (a + 1) ns (RtoC 0))
                | Some j => Ok (couple_stack (nth j coh no_data) (nth j bcoh no_data))
                end in
      let! r := couplings pol beta ns coh bcoh afi' sfi' in
      Ok (c :: r)
  | _, _ => Ok []
  end.
(** Lines 846-848 and 895-897: [X[X < 1e-30] = 1e-30]. *)
Definition raise30 (x : R) : R := if Rlt_dec x (/ 10 ^ 30) then / 10 ^ 30 else x.
(** With [raise30], tmm_core_vec.py, lines 846-848 and 895-897. *)
Definition raise_T (c : cpl) : cpl := Cpl (c_R c) (raise30 (c_T c)) (c_R' c) (raise30 (c_T' c)).
(** Lines 840-844: the fraction not absorbed in one pass through an inner incoherent layer.
    An inner layer of infinite thickness gives exp(-inf) or nan in numpy; the model stops
    with RuntimeError. *)
Definition single_pass (lam : R) (beta : C) (ns : list C) (ds : list (option R)) (i : nat) : res R :=
  match nth i ds None with
  | Some d => let n := nth i ns (RtoC 0) in
              Ok (raise30 (exp (- 4 * PI * d * Im (n * cos_in beta n)%C / lam)))
  | None => Err RuntimeError
  end.

(** Real 2x2 matrices and [np.matmul]. *)
Record rmat : Type := RM { r00 : R; r01 : R; r10 : R; r11 : R }.
(** For [inner_matrix], tmm_core_vec.py, lines 908-913. *)
Definition rmul (a b : rmat) : rmat :=
  RM (r00 a * r00 b + r01 a * r10 b) (r00 a * r01 b + r01 a * r11 b)
     (r10 a * r00 b + r11 a * r10 b) (r10 a * r01 b + r11 a * r11 b).
(** For [intensities], tmm_core_vec.py, lines 925-932. *)
Definition rapply (a : rmat) (v : R * R) : R * R :=
  (r00 a * fst v + r01 a * snd v, r10 a * fst v + r11 a * snd v).
(** For [first_matrix], tmm_core_vec.py, lines 900-903. *)
Definition rdiv (a : rmat) (k : R) : rmat := RM (r00 a / k) (r01 a / k) (r10 a / k) (r11 a / k).
(** The bracket of lines 900-902 and 909-912. *)
Definition bracket (c : cpl) : rmat :=
  RM 1 (- c_R' c) (c_R c) (c_T' c * c_T c - c_R' c * c_R c).
(** Lines 900-903: the matrix [Ltilde] before the loop. *)
Definition first_matrix (c : cpl) : rmat := rdiv (bracket c) (c_T c).
(** Lines 908-913: the matrix [L] of an inner incoherent layer. *)
Definition inner_matrix (P : R) (c : cpl) : rmat := rdiv (rmul (RM (1 / P) 0 0 P) (bracket c)) (c_T c).
(** Lines 925-932: [VW_list] from its entry 1 on (the entry 0 is nan). *)
Fixpoint intensities (l : list rmat) (T : R) : list (R * R) :=
  match l with
  | [] => [(T, 0)]
  | m :: l' => rapply m (hd (T, 0) (intensities l' T)) :: intensities l' T
  end.
Notation vw_at VW i := (nth (i - 1) VW (0, 0)).
Notation p_at Ps i := (nth (i - 1) Ps 0).
(** Lines 939-946. *)
Definition stack_FB (VW : list (R * R)) (Ps : list R) (prev : nat) : R * R :=
  (if (prev =? 0)%nat then 1 else fst (vw_at VW prev) * p_at Ps prev, snd (vw_at VW (prev + 1))).
(** One turn of the loop of lines 952-970, for the layer [i] and [stack_from_inc[i]]. *)
Definition entering (VW : list (R * R)) (Ps : list R) (cs : list cpl) (FB : list (R * R))
  (coh bcoh : list coh_data) (is_ : nat * option nat) : R :=
  let (i, s) := is_ in
  let c := nth (i - 1) cs (Cpl 0 0 0 0) in
  match s with
  | None => if (i =? 1)%nat then c_T c - snd (vw_at VW 1) * c_T' c
            else fst (vw_at VW (i - 1)) * p_at Ps (i - 1) * c_T c - snd (vw_at VW i) * c_T' c
  | Some j => fst (nth j FB (0, 0)) * cd_T (nth j coh no_data)
              - snd (nth j FB (0, 0)) * cd_power_entering (nth j bcoh no_data)
  end.

(** The returned dictionary, lines 983-989. *)
Record inc_data : Type := IncData {
  id_T : R; id_R : R; id_VW : list (R * R); id_coh : list coh_data; id_bcoh : list coh_data;
  id_FB : list (R * R); id_pe : list R; id_group : gstate (N := C) (D := R) }.
(** Lines 979-980. *)
Definition clip_R (x : R) : R := if Rlt_dec 1 x then 1 else x.
(** With [clip_R], tmm_core_vec.py, lines 979-980. *)
Definition clip_T (x : R) : R := if Rlt_dec x 0 then 0 else x.

(** Lines 821-832, the calls of [coh_tmm] and [coh_tmm_reverse] for one stack; the angle is
    that of the layer in front of it. *)
Definition stack_run (f : string -> list C -> list (option R) -> C -> C -> R -> res coh_data)
  (pol : string) (beta : C) (ns : list C) (lam : R) (x : list C * list (option R) * list nat) : res coh_data :=
  let '(sn, sd, l) := x in
  let n := nth (hd 0%nat l) ns (RtoC 0) in
  f pol sn sd (sin_in beta n) (cos_in beta n) lam.

(** tmm_core_vec.py:757-989 [inc_tmm]; [s0] is sin(th_0). The test of line 806 is applied
    after [real_if_close], i.e. with numpy's tolerance of 100 epsilon, as in [coh_tmm]. With
    a single layer [R_list[1, 0]] is an IndexError. *)
Definition inc_tmm (pol : string) (ns : list C) (ds : list (option R)) (cs : list string) (s0 : C) (lam : R)
  : res inc_data :=
  match ns with
  | [] => Err IndexError
  | n0 :: _ =>
      let beta := (n0 * s0)%C in
      if Rlt_dec epsilon100 (Rabs (Im beta)) then Err ValueError
      else
        let! g := inc_group_layers ns ds cs in
        let stacks := combine (combine (g_stack_n g) (g_stack_d g)) (g_all_from_stack g) in
        let! coh := mapRR (stack_run coh_tmm pol beta ns lam) stacks in
        let! bcoh := mapRR (stack_run coh_tmm_reverse pol beta ns lam) stacks in
        let! Ps := mapRR (single_pass lam beta ns ds) (inner (g_all_from_inc g)) in
        let! cs0 := couplings pol beta ns coh bcoh (g_all_from_inc g) (tl (g_stack_from_inc g)) in
        let cl := map raise_T cs0 in
        match cl with
        | [] => Err IndexError
        | c0 :: cr =>
            let Ls := map (fun pc => inner_matrix (fst pc) (snd pc)) (combine Ps cr) in
            let Lt := fold_left rmul Ls (first_matrix c0) in
            let T := 1 / r00 Lt in
            let R_ := r10 Lt / r00 Lt in
            let VW := intensities Ls T in
            let FB := map (stack_FB VW Ps) (g_inc_from_stack g) in
            let pe := 1 :: map (entering VW Ps cl FB coh bcoh)
                             (combine (seq 1 (length cl)) (tl (g_stack_from_inc g))) in
            Ok (IncData (clip_T T) (clip_R R_) VW coh bcoh FB pe g)
        end
  end.

(** * tmm_core_vec.py:992-1042 [inc_absorp_in_each_layer] *)
(** Lines 1029-1033: the layers of a coherent stack, seen from both sides; [[1:-1]] and
    [[-2:0:-1]]. *)
Definition stack_absorp (F B : R) (d b : coh_data) : res (list R) :=
  let! a := absorp_in_each_layer d in
  let! a' := absorp_in_each_layer b in
  Ok (map (fun xy => F * fst xy + B * snd xy) (combine (inner a) (rev (inner a')))).
(** The loop of lines 1016-1034, over consecutive entries of [power_entering_list] and
    [stack_from_inc[i + 1]]. *)
Fixpoint absorp_loop (D : inc_data) (pe : list R) (sfi : list (option nat)) : res (list R) :=
  match pe, sfi with
  | p :: ((p' :: _) as pe'), s :: sfi' =>
      match s with
      | None => let! r := absorp_loop D pe' sfi' in Ok ((p - p') :: r)
      | Some j =>
          let d := nth j (id_coh D) no_data in let b := nth j (id_bcoh D) no_data in
          let FB := nth j (id_FB D) (0, 0) in
          let exiting := fst FB * cd_power_entering d - snd FB * cd_T b in
          let! a := stack_absorp (fst FB) (snd FB) d b in
          let! r := absorp_loop D pe' sfi' in
          Ok ((p - exiting) :: a ++ r)
      end
  | _, _ => Ok []
  end.
(** Lines 1036-1042. *)
Definition inc_absorp_in_each_layer (D : inc_data) : res (list R) :=
  let! l := absorp_loop D (id_pe D) (tl (g_stack_from_inc (id_group D))) in
  Ok (map clamp0 (l ++ [id_T D])).

(** * tmm_core_vec.py:1104-1124 [beer_lambert] for one wavelength and one distance [z];
    [zmax] is [max(dist)]. [np.divide(..., where=...)] leaves 0 where A_integrated is 0. *)
(** Lines 757-1124. *)
Definition beer_lambert (alpha fraction zmax A_total z : R) : R :=
  let A_integrated := fraction * (1 - exp (- alpha * zmax)) in
  let scale := if Req_EM_T A_integrated 0 then 0 else A_total / A_integrated in
  scale * fraction * alpha * exp (- alpha * z) / 10 ^ 9.
