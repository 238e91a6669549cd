(** Model of class [OptiStack], solcore/absorption_calculator/transfer_matrix.py:54-411. *)
From Coq Require Import Reals ZArith List Bool Arith.
From Coquelicot Require Import Complex.
From Verif Require Import Common InterpModel.
From Coq Require Import List.
Import ListNotations.
Open Scope R_scope.
Open Scope list_scope.

(** [solcore.si(x, "nm")], used at lines 162, 372, 373, 385, 391, 403, 409. *)
Definition nm (x : R) : R := x / 10 ^ 9.

(** A dielectric model: its method [n_and_k] at a wavelength in metres (line 343). *)
Notation dmodel := (R -> C).

(** What is stored in [n_data] and [k_data]: methods of a material (333-334), methods of a
    model and the dummy (343-344), interpolated tables (398-411) and the two closures of a
    mixed layer (381-393). The cache around each of them (np_cache) is [cached] below. *)
Inductive ndata : Type :=
| NFun : (R -> R) -> ndata
| NOfModel : dmodel -> ndata
| NTable : table1d -> ndata
| NMix : list R -> list R -> R -> R -> bool -> ndata.
(** With [ndata], transfer_matrix.py, lines 333-334, 343-344, 398-411, 381-393. *)
Inductive kdata : Type :=
| KFun : (R -> R) -> kdata
| KZero : kdata
| KTable : table1d -> kdata
| KMix : list R -> list R -> kdata.

(** The attributes set in [__init__], lines 128-143, and the input layers. [models] holds
    [None] for the empty list that stands for "no model" (332, 397). *)
Inductive layer_in : Type :=
| LSolcore : R -> (R -> R) -> (R -> R) -> layer_in             (* a Layer: width, n, k *)
| LModel : R -> dmodel -> layer_in                             (* [thickness, model] *)
| LRaw : R -> list R -> list R -> list R -> layer_in           (* [thickness, wl, n, k] *)
| LMixed : R -> list R -> list R -> list R -> dmodel -> R -> R -> bool -> layer_in
| LNoMixing : R -> list R -> list R -> list R -> dmodel -> layer_in  (* five elements, the sixth missing *)
| LBad : layer_in.                                             (* fails before anything is stored *)
(** With [layer_in], transfer_matrix.py, lines 128-143. *)
Record stack : Type := Stack {
  st_layers : list layer_in; st_widths : list R; st_models : list (option dmodel);
  st_n : list ndata; st_k : list kdata; st_num : nat }.
(** Lines 128-142 with an empty structure. *)
Definition empty_stack : stack := Stack [] [] [] [] [] 0.

(** Lines 357-360: the arrays are reversed when the first wavelength is above the last. *)
Definition descending (xs : list R) : bool :=
  if Rlt_dec (last xs 0) (hd 0 xs) then true else false.
(** With [descending], transfer_matrix.py, lines 357-360. *)
Definition orient {A} (b : bool) (l : list A) : list A := if b then rev l else l.

(** Line 253: the layer is remembered before anything else. *)
Definition remember (s : stack) (l : layer_in) : stack :=
  Stack (st_layers s ++ [l]) (st_widths s) (st_models s) (st_n s) (st_k s) (st_num s).
(** Lines 325-334 [_add_solcore_layer] and 337-345 [_add_modelled_layer]. *)
Definition push_width (s : stack) (w : R) : stack :=
  Stack (st_layers s) (st_widths s ++ [w]) (st_models s) (st_n s) (st_k s) (st_num s).
(** With [push_width], transfer_matrix.py, lines 325-334. *)
Definition push_model (s : stack) (m : option dmodel) : stack :=
  Stack (st_layers s) (st_widths s) (st_models s ++ [m]) (st_n s) (st_k s) (st_num s).
(** With [push_width], transfer_matrix.py, lines 325-334. *)
Definition push_n (s : stack) (n : ndata) : stack :=
  Stack (st_layers s) (st_widths s) (st_models s) (st_n s ++ [n]) (st_k s) (st_num s).
(** With [push_width], transfer_matrix.py, lines 325-334. *)
Definition push_k (s : stack) (k : kdata) : stack :=
  Stack (st_layers s) (st_widths s) (st_models s) (st_n s) (st_k s ++ [k]) (st_num s).
(** Line 261. *)
Definition count (s : stack) : stack :=
  Stack (st_layers s) (st_widths s) (st_models s) (st_n s) (st_k s) (S (st_num s)).
(** [interp1d(x=si(wl, "nm"), y=y, fill_value=...)], lines 384-386, 389-393, 401-411. *)
Definition table (xs ys : list R) (fill : R) : res table1d :=
  interp1d (map nm xs) ys Linear false (Some fill).
(** [fill_value=y[-1]] of an empty list is an IndexError, which ends up in the same place. *)
Definition last_or (ys : list R) : R := last ys 0.

(** One turn of the loop of [add_layers], lines 252-261, with the three methods it calls;
    the second component tells whether an exception was raised. *)
Definition add_one (s0 : stack) (l : layer_in) : stack * bool :=
  let s := remember s0 l in
  match l with
  | LSolcore w n k => (count (push_k (push_n (push_model (push_width s w) None) (NFun n)) (KFun k)), true)
  | LModel w m => (count (push_k (push_n (push_model (push_width s w) (Some m)) (NOfModel m)) KZero), true)
  | LRaw w xs ns ks =>
      match xs with
      | [] => (s, false)
      | _ =>
          let b := descending xs in
          let s1 := push_model (push_width s w) None in
          match table (orient b xs) (orient b ns) (last_or (orient b ns)) with
          | Err _ => (s1, false)
          | Ok tn =>
              let s2 := push_n s1 (NTable tn) in
              match table (orient b xs) (orient b ks) (last_or (orient b ks)) with
              | Err _ => (s2, false)
              | Ok tk => (count (push_k s2 (KTable tk)), true)
              end
          end
      end
  | LMixed w xs ns ks m c wd d =>
      match xs with
      | [] => (s, false)
      | _ =>
          let b := descending xs in
          (count (push_k (push_n (push_model (push_width s w) (Some m))
                    (NMix (orient b xs) (orient b ns) (nm c) (nm wd) d)) (KMix (orient b xs) (orient b ks))), true)
      end
  | LNoMixing w xs ns ks m =>
      match xs with
      | [] => (s, false)
      | _ => (push_model (push_width s w) (Some m), false)
      end
  | LBad => (s, false)
  end.
(** [add_layers], lines 231-266: an exception is printed and ends the loop. *)
Fixpoint add_layers (s : stack) (ls : list layer_in) : stack :=
  match ls with
  | [] => s
  | l :: r => match add_one s l with
              | (s', true) => add_layers s' r
              | (s', false) => s'
              end
  end.

(** Python list indexing: [i] in [-n, n) (for [remove_layer], transfer_matrix.py, lines 268-286). *)
Definition pos (n : nat) (i : Z) : option nat :=
  let k := (if i <? 0 then i + Z.of_nat n else i)%Z in
  if ((0 <=? k) && (k <? Z.of_nat n))%Z then Some (Z.to_nat k) else None.
(** For [remove_layer], transfer_matrix.py, lines 268-286. *)
Definition drop_at {A} (k : nat) (l : list A) : list A := firstn k l ++ skipn (S k) l.
(** For [remove_layer], transfer_matrix.py, lines 268-286. *)
Definition pop {A} (i : Z) (l : list A) : res (list A) :=
  match pos (length l) i with Some k => Ok (drop_at k l) | None => Err IndexError end.
(** For [swap_layers], transfer_matrix.py, lines 288-305. *)
Definition set_at {A} (k : nat) (x : A) (l : list A) : list A := firstn k l ++ x :: skipn (S k) l.
(** [l[i], l[j] = l[j], l[i]]: both reads come before both writes (for [swap_layers], transfer_matrix.py, lines 288-305). *)
Definition swap {A} (i j : Z) (l : list A) : res (list A) :=
  match pos (length l) i, pos (length l) j with
  | Some a, Some b =>
      match nth_error l a, nth_error l b with
      | Some x, Some y => Ok (set_at b x (set_at a y l))
      | _, _ => Err IndexError
      end
  | _, _ => Err IndexError
  end.

(** [remove_layer], lines 268-286: an index that is too large is only reported. The list of
    input layers is left alone. *)
Definition remove_layer (s : stack) (i : Z) : stack * res unit :=
  if (Z.of_nat (st_num s) <=? i)%Z then (s, Ok tt)
  else match pop i (st_widths s) with
       | Err e => (s, Err e)
       | Ok w =>
           let s1 := Stack (st_layers s) w (st_models s) (st_n s) (st_k s) (st_num s) in
           match pop i (st_models s) with
           | Err e => (s1, Err e)
           | Ok m =>
               let s2 := Stack (st_layers s) w m (st_n s) (st_k s) (st_num s) in
               match pop i (st_n s) with
               | Err e => (s2, Err e)
               | Ok n =>
                   let s3 := Stack (st_layers s) w m n (st_k s) (st_num s) in
                   match pop i (st_k s) with
                   | Err e => (s3, Err e)
                   | Ok k => (Stack (st_layers s) w m n k (st_num s - 1), Ok tt)
                   end
               end
           end
       end.
(** [swap_layers], lines 288-305. *)
Definition swap_layers (s : stack) (i j : Z) : stack * res unit :=
  if (Z.of_nat (st_num s) <=? i)%Z || (Z.of_nat (st_num s) <=? j)%Z then (s, Ok tt)
  else match swap i j (st_widths s) with
       | Err e => (s, Err e)
       | Ok w =>
           let s1 := Stack (st_layers s) w (st_models s) (st_n s) (st_k s) (st_num s) in
           match swap i j (st_models s) with
           | Err e => (s1, Err e)
           | Ok m =>
               let s2 := Stack (st_layers s) w m (st_n s) (st_k s) (st_num s) in
               match swap i j (st_n s) with
               | Err e => (s2, Err e)
               | Ok n =>
                   let s3 := Stack (st_layers s) w m n (st_k s) (st_num s) in
                   match swap i j (st_k s) with
                   | Err e => (s3, Err e)
                   | Ok k => (Stack (st_layers s) w m n k (st_num s), Ok tt)
                   end
               end
           end
       end.
(** [set_widths], lines 307-321. *)
Definition set_widths (s : stack) (ws : list R) : stack * res unit :=
  if (length ws =? st_num s)%nat
  then (Stack (st_layers s) ws (st_models s) (st_n s) (st_k s) (st_num s), Ok tt)
  else (s, Err AssertionError).

(** * Reading the stack *)
(** [__call__] of an interpolator at one value (out of range: the fill value) (for [eval_n], transfer_matrix.py, line 382). *)
Definition eval_table (t : table1d) (x : R) : R :=
  if below t x || above t x then match t_fill t with Some f => f | None => 0 end
  else call_linear (t_x t) (t_y t) x.
(** Lines 376-379. *)
Definition mix (c w : R) (d : bool) (x : R) : R :=
  let out := 1 + exp (- (x - c) / w) in
  if d then 1 + (-1) * 1 / out else 0 + 1 * 1 / out.
(** Calling an element of [n_data]; [self.models[-1]] in line 382 is looked up at the time of
    the call. *)
Definition eval_n (s : stack) (n : ndata) (x : R) : res C :=
  match n with
  | NFun f => Ok (RtoC (f x))
  | NOfModel m => Ok (m x)
  | NTable t => Ok (RtoC (eval_table t x))
  | NMix xs ys c w d =>
      match rev (st_models s) with
      | [] => Err IndexError
      | None :: _ => Err AttributeError
      | Some m :: _ =>
          let! t := table xs ys (last_or ys) in
          Ok (m x * mix c w d x + (1 - mix c w d x)%R * eval_table t x)%C
      end
  end.
(** With [eval_n], transfer_matrix.py, line 382. *)
Definition eval_k (k : kdata) (x : R) : res R :=
  match k with
  | KFun f => Ok (f x)
  | KZero => Ok 0
  | KTable t => Ok (eval_table t x)
  | KMix xs ys => let! t := table xs ys (last_or ys) in Ok (eval_table t x)
  end.
(** The loop of lines 184-185: [n_data[i](wl) + k_data[i](wl) * 1j] for i < num_layers. *)
Fixpoint indices_loop (s : stack) (x : R) (ns : list ndata) (ks : list kdata) (num : nat) {struct num} : res (list C) :=
  match num with
  | O => Ok []
  | S m =>
      match ns, ks with
      | n :: ns', k :: ks' =>
          let! a := eval_n s n x in
          let! b := eval_k k x in
          let! r := indices_loop s x ns' ks' m in
          Ok ((a + b * Ci)%C :: r)
      | _, _ => Err IndexError
      end
  end.
(** The outer media: [substrate] gives n and k, [incidence] only n (lines 164-182). *)
Record outer : Type := Outer { o_sub : option ((R -> R) * (R -> R)); o_inc : option (R -> R); o_noback : bool }.
(** With [outer], transfer_matrix.py, lines 164-182. *)
Definition n_front (o : outer) (x : R) : C := match o_inc o with Some f => RtoC (f x) | None => RtoC 1 end.
(** With [outer], transfer_matrix.py, lines 164-182. *)
Definition n_back (o : outer) (x : R) : C :=
  match o_sub o with Some (n, k) => (n x + k x * Ci)%C | None => RtoC 1 end.
(** [_k_absorbing], lines 211-219. *)
Definition k_absorbing (s : stack) (x : R) : res R :=
  match rev (st_k s) with
  | [] => Err IndexError
  | k :: _ => let! b := eval_k k x in Ok (Rmax (x / (/ 10 ^ 3)) b)
  end.
(** [get_indices], lines 152-196, at one wavelength in nm. *)
Definition get_indices (o : outer) (s : stack) (wl : R) : res (list C) :=
  let x := nm wl in
  let! out := indices_loop s x (st_n s) (st_k s) (st_num s) in
  if o_noback o then
    match rev (st_n s) with
    | [] => Err IndexError
    | n :: _ =>
        let! a := eval_n s n x in
        let! b := k_absorbing s x in
        Ok ([n_front o x] ++ out ++ [(a + b * Ci)%C; n_back o x])
    end
  else Ok ([n_front o x] ++ out ++ [n_back o x]).
(** [get_widths], lines 198-209; [None] is inf. *)
Definition get_widths (o : outer) (s : stack) : list (option R) :=
  if o_noback o then [None] ++ map Some (st_widths s) ++ [Some (10 ^ 6); None]
  else [None] ++ map Some (st_widths s) ++ [None].

(** * Histories *)
(** By [layer_in], transfer_matrix.py, lines 128-143. *)
Inductive sop : Type :=
| OAdd : list layer_in -> sop
| ORemove : Z -> sop
| OSwap : Z -> Z -> sop
| OWidths : list R -> sop.
(** One call, exceptions caught by the caller (by [add_layers], transfer_matrix.py, lines 231-266, [remove_layer], transfer_matrix.py, lines 268-286, [swap_layers], transfer_matrix.py, lines 288-305, [set_widths], transfer_matrix.py, lines 307-321). *)
Definition sstep (s : stack) (o : sop) : stack :=
  match o with
  | OAdd ls => add_layers s ls
  | ORemove i => fst (remove_layer s i)
  | OSwap i j => fst (swap_layers s i j)
  | OWidths ws => fst (set_widths s ws)
  end.
(** Solcore/absorption_calculator/transfer_matrix.py:54-411. *)
Definition srun (s : stack) (h : list sop) : stack := fold_left sstep h s.

(** * np_cache, lines 20-51 *)
(** A function that may give different answers at different times ([E] is the state it reads)
    behind the cache; arrays of wavelengths are the keys. Simplified: the limit of 128 stored
    results is not modelled. *)
Section Cache.
Context {E K V : Type} (keq : forall a b : K, {a = b} + {a <> b}) (f : E -> K -> V).
(** For [cached], transfer_matrix.py, lines 36-39. *)
Fixpoint lookup (k : K) (c : list (K * V)) : option V :=
  match c with
  | [] => None
  | (a, v) :: r => if keq a k then Some v else lookup k r
  end.
(** Lines 36-39: a call with an array. *)
Definition cached (e : E) (c : list (K * V)) (k : K) : V * list (K * V) :=
  match lookup k c with
  | Some v => (v, c)
  | None => (f e k, (k, f e k) :: c)
  end.
(** A sequence of calls, each made in some state of the world (by [cached], transfer_matrix.py, lines 36-39). *)
Fixpoint calls (c : list (K * V)) (h : list (E * K)) : list V :=
  match h with
  | [] => []
  | (e, k) :: r => let vc := cached e c k in fst vc :: calls (snd vc) r
  end.
End Cache.
