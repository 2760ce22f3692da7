(** Model of src/gym_electric_motor/physical_systems/converters.py.

    Methods are functions from the object state and the arguments to the new
    state and the returned value or raised exception.  Actions of finite
    converters are integers; [Discrete(n).contains] of something that is not an
    integer is False and not modelled.  NaN is not modelled. *)
From Verif Require Import PyBase.

(** Call result: state afterwards and value. *)
Notation call S A := (S * res A)%type.

(** [sorted(list(set(times)))]: strictly increasing list of the members. *)
Fixpoint set_insert (x : R) (l : list R) : list R :=
  match l with
  | [] => [x]
  | y :: l' => if rlt x y then x :: l else if req x y then l else y :: set_insert x l'
  end.
Definition sort_set (l : list R) : list R := fold_right set_insert [] l.

(** [l[0]] of a list of currents. *)
Definition head_r (l : list R) : res R :=
  match l with x :: _ => Ok x | [] => Err IndexError end.
Definition nth_r (i : nat) (l : list R) : res R :=
  match nth_error l i with Some x => Ok x | None => Err IndexError end.

(** [Discrete(n).contains(a)] *)
Definition discrete_contains (n : Z) (a : Z) : bool := (0 <=? a)%Z && (a <? n)%Z.

(** ** FiniteOneQuadrantConverter, 218-245 (constructor 35-43, 199-201).
    The switching pattern is written by the base class and never read. *)
Record f1 := { f1_tau : R; f1_il : R; f1_start : R; f1_cur : Z }.
Definition f1_new (tau il : R) : f1 := {| f1_tau := tau; f1_il := il; f1_start := 0; f1_cur := 0 |}.
(** [FiniteConverter.set_action], 203-207, with the base class 56-69 and 99-111. *)
Definition f1_set_action (c : f1) (a : Z) (t : R) : call f1 (list R) :=
  if discrete_contains 2 a then
    ({| f1_tau := f1_tau c; f1_il := f1_il c; f1_start := t; f1_cur := a |}, Ok [t + f1_tau c])
  else (c, Err AssertionError).
(** [convert], 239-241 *)
Definition f1_convert (c : f1) (i : list R) (t : R) : call f1 (list R) :=
  (c, do i0 <- head_r i; Ok [if rle 0 i0 then IZR (f1_cur c) else 1]).
(** [i_sup], 243-245 *)
Definition f1_i_sup (c : f1) (i : list R) : res R :=
  if (f1_cur c =? 1)%Z then head_r i else Ok 0.
(** [reset], 45-54 *)
Definition f1_reset (c : f1) : call f1 (list R) :=
  ({| f1_tau := f1_tau c; f1_il := f1_il c; f1_start := 0; f1_cur := 0 |}, Ok [0]).
(** [tau] setter, 31-33 *)
Definition f1_set_tau (v : R) (c : f1) : f1 :=
  {| f1_tau := v; f1_il := f1_il c; f1_start := f1_start c; f1_cur := f1_cur c |}.

(** ** FiniteTwoQuadrantConverter, 248-310.  The current action is written and
    never read, so it is left out. *)
Record f2 := { f2_tau : R; f2_il : R; f2_start : R; f2_sw : Z; f2_pat : list Z }.
(** 187-201: the switching state starts at 0, the pattern is empty. *)
Definition f2_new (tau il : R) : f2 :=
  {| f2_tau := tau; f2_il := il; f2_start := 0; f2_sw := 0; f2_pat := [] |}.
(** [_set_switching_pattern], 300-310 *)
Definition f2_pattern (c : f2) (a : Z) : list Z * list R :=
  if (a =? 0)%Z || (f2_sw c =? 0)%Z || (a =? f2_sw c)%Z || req (f2_il c) 0
  then ([a], [f2_start c + f2_tau c])
  else ([0%Z; a], [f2_start c + f2_il c; f2_start c + f2_tau c]).
(** [set_action], 203-207 and 56-69 *)
Definition f2_set_action (c : f2) (a : Z) (t : R) : call f2 (list R) :=
  if discrete_contains 3 a then
    let c1 := {| f2_tau := f2_tau c; f2_il := f2_il c; f2_start := t; f2_sw := f2_sw c; f2_pat := f2_pat c |} in
    let (pat, times) := f2_pattern c1 a in
    ({| f2_tau := f2_tau c; f2_il := f2_il c; f2_start := t; f2_sw := f2_sw c; f2_pat := pat |}, Ok times)
  else (c, Err AssertionError).
(** The switching state chosen in [convert], 273-276. *)
Definition f2_next_sw (c : f2) (t : R) : res Z :=
  match f2_pat c with
  | [] => Err IndexError
  | p0 :: _ => if rlt (f2_start c + f2_il c) (t - f2_tau c / 1000)
               then Ok (last (f2_pat c) 0%Z) else Ok p0
  end.
(** Output voltage of a switching state, 277-287. *)
Definition f2_out (sw : Z) (i : list R) : res (list R) :=
  if (sw =? 0)%Z then do i0 <- head_r i; Ok [if rlt i0 0 then 1 else 0]
  else if (sw =? 1)%Z then Ok [1]
  else if (sw =? 2)%Z then Ok [0]
  else Err PlainException.
(** [convert], 270-287 *)
Definition f2_convert (c : f2) (i : list R) (t : R) : call f2 (list R) :=
  match f2_next_sw c t with
  | Err e => (c, Err e)
  | Ok sw => ({| f2_tau := f2_tau c; f2_il := f2_il c; f2_start := f2_start c; f2_sw := sw; f2_pat := f2_pat c |},
              f2_out sw i)
  end.
(** [i_sup], 289-298 *)
Definition f2_i_sup (c : f2) (i : list R) : res R :=
  if (f2_sw c =? 0)%Z then do i0 <- head_r i; Ok (if rlt i0 0 then i0 else 0)
  else if (f2_sw c =? 1)%Z then head_r i
  else if (f2_sw c =? 2)%Z then Ok 0
  else Err PlainException.
(** [reset], 45-54: neither the switching state nor the pattern is reset. *)
Definition f2_reset (c : f2) : call f2 (list R) :=
  ({| f2_tau := f2_tau c; f2_il := f2_il c; f2_start := 0; f2_sw := f2_sw c; f2_pat := f2_pat c |}, Ok [0]).
Definition f2_set_tau (v : R) (c : f2) : f2 :=
  {| f2_tau := v; f2_il := f2_il c; f2_start := f2_start c; f2_sw := f2_sw c; f2_pat := f2_pat c |}.

(** ** FiniteFourQuadrantConverter, 313-368.  Its own action and start time are
    never read after construction; its [tau] is only read through the property. *)
Record f4 := { f4_tau : R; f4_a : f2; f4_b : f2 }.
Definition f4_new (tau il : R) : f4 := {| f4_tau := tau; f4_a := f2_new tau il; f4_b := f2_new tau il |}.
(** The tables of lines 360, 361 *)
Definition f4_action0 (a : Z) : Z := nth (Z.to_nat a) [1;1;2;2]%Z 0%Z.
Definition f4_action1 (a : Z) : Z := nth (Z.to_nat a) [1;2;1;2]%Z 0%Z.
(** [set_action], 354-364 *)
Definition f4_set_action (c : f4) (a : Z) (t : R) : call f4 (list R) :=
  if discrete_contains 4 a then
    let (x, tx) := f2_set_action (f4_a c) (f4_action0 a) t in
    match tx with
    | Err e => ({| f4_tau := f4_tau c; f4_a := x; f4_b := f4_b c |}, Err e)
    | Ok tx =>
        let (y, ty) := f2_set_action (f4_b c) (f4_action1 a) t in
        ({| f4_tau := f4_tau c; f4_a := x; f4_b := y |}, do ty <- ty; Ok (sort_set (tx ++ ty)))
    end
  else (c, Err AssertionError).
(** [convert], 350-352 *)
Definition f4_convert (c : f4) (i : list R) (t : R) : call f4 (list R) :=
  let (x, ux) := f2_convert (f4_a c) i t in
  match ux, i with
  | Ok [ux], i0 :: _ =>
      let (y, uy) := f2_convert (f4_b c) [- i0] t in
      ({| f4_tau := f4_tau c; f4_a := x; f4_b := y |},
       do uy <- uy; do uy <- head_r uy; Ok [ux - uy])
  | Ok _, _ => ({| f4_tau := f4_tau c; f4_a := x; f4_b := f4_b c |}, Err IndexError)
  | Err e, _ => ({| f4_tau := f4_tau c; f4_a := x; f4_b := f4_b c |}, Err e)
  end.
(** [i_sup], 366-368 *)
Definition f4_i_sup (c : f4) (i : list R) : res R :=
  do x <- f2_i_sup (f4_a c) i;
  do i0 <- head_r i;
  do y <- f2_i_sup (f4_b c) [- i0];
  Ok (x + y).
(** [reset], 344-348 *)
Definition f4_reset (c : f4) : call f4 (list R) :=
  ({| f4_tau := f4_tau c; f4_a := fst (f2_reset (f4_a c)); f4_b := fst (f2_reset (f4_b c)) |}, Ok [0]).
(** [tau] setter of the base class, 31-33: the half bridges keep theirs. *)
Definition f4_set_tau (v : R) (c : f4) : f4 := {| f4_tau := v; f4_a := f4_a c; f4_b := f4_b c |}.

(** ** FiniteB6BridgeConverter, 743-839 *)
Record f6 := { f6_tau : R; f6_a : f2; f6_b : f2; f6_c : f2 }.
Definition f6_new (tau il : R) : f6 :=
  {| f6_tau := tau; f6_a := f2_new tau il; f6_b := f2_new tau il; f6_c := f2_new tau il |}.
(** [_subactions], 788-797 *)
Definition f6_subactions : list (list Z) :=
  [[2;2;2]; [2;2;1]; [2;1;2]; [2;1;1]; [1;2;2]; [1;2;1]; [1;1;2]; [1;1;1]]%Z.
Definition f6_sub (a : Z) (k : nat) : Z := nth k (nth (Z.to_nat a) f6_subactions []) 0%Z.
(** [set_action], 825-835 *)
Definition f6_set_action (c : f6) (a : Z) (t : R) : call f6 (list R) :=
  if discrete_contains 8 a then
    let (x, tx) := f2_set_action (f6_a c) (f6_sub a 0) t in
    let (y, ty) := f2_set_action (f6_b c) (f6_sub a 1) t in
    let (z, tz) := f2_set_action (f6_c c) (f6_sub a 2) t in
    (* the sub actions are always valid, so no call raises *)
    ({| f6_tau := f6_tau c; f6_a := x; f6_b := y; f6_c := z |},
     do tx <- tx; do ty <- ty; do tz <- tz; Ok (sort_set (tx ++ ty ++ tz)))
  else (c, Err AssertionError).
(** [convert], 816-823 *)
Definition half (u : res (list R)) : res R := do u <- u; do u0 <- head_r u; Ok (u0 - /2).
Definition f6_convert (c : f6) (i : list R) (t : R) : call f6 (list R) :=
  match i with
  | [] => (c, Err IndexError)
  | i0 :: i' =>
      let (x, ux) := f2_convert (f6_a c) [i0] t in
      match half ux, i' with
      | Err e, _ => ({| f6_tau := f6_tau c; f6_a := x; f6_b := f6_b c; f6_c := f6_c c |}, Err e)
      | Ok _, [] => ({| f6_tau := f6_tau c; f6_a := x; f6_b := f6_b c; f6_c := f6_c c |}, Err IndexError)
      | Ok vx, i1 :: i'' =>
          let (y, uy) := f2_convert (f6_b c) [i1] t in
          match half uy, i'' with
          | Err e, _ => ({| f6_tau := f6_tau c; f6_a := x; f6_b := y; f6_c := f6_c c |}, Err e)
          | Ok _, [] => ({| f6_tau := f6_tau c; f6_a := x; f6_b := y; f6_c := f6_c c |}, Err IndexError)
          | Ok vy, i2 :: _ =>
              let (z, uz) := f2_convert (f6_c c) [i2] t in
              ({| f6_tau := f6_tau c; f6_a := x; f6_b := y; f6_c := z |},
               do vz <- half uz; Ok [vx; vy; vz])
          end
      end
  end.
(** [i_sup], 837-839: [zip] stops at the shorter list. *)
Definition f6_i_sup (c : f6) (i : list R) : res R :=
  (fix go (cs : list f2) (i : list R) : res R :=
     match cs, i with
     | c :: cs', i0 :: i' => do x <- f2_i_sup c [i0]; do r <- go cs' i'; Ok (x + r)
     | _, _ => Ok 0
     end) [f6_a c; f6_b c; f6_c c] i.
(** [reset], 808-814 *)
Definition f6_reset (c : f6) : call f6 (list R) :=
  ({| f6_tau := f6_tau c; f6_a := fst (f2_reset (f6_a c)); f6_b := fst (f2_reset (f6_b c));
      f6_c := fst (f2_reset (f6_c c)) |}, Ok [0 - /2; 0 - /2; 0 - /2]).
Definition f6_set_tau (v : R) (c : f6) : f6 :=
  {| f6_tau := v; f6_a := f6_a c; f6_b := f6_b c; f6_c := f6_c c |}.

(** ** The elementary finite converters as one type *)
Inductive fin := F1 (c : f1) | F2 (c : f2) | F4 (c : f4) | F6 (c : f6).
Definition lift {S T A} (k : S -> T) (r : call S A) : call T A := (k (fst r), snd r).
Definition fin_set_action (c : fin) (a : Z) (t : R) : call fin (list R) :=
  match c with
  | F1 c => lift F1 (f1_set_action c a t) | F2 c => lift F2 (f2_set_action c a t)
  | F4 c => lift F4 (f4_set_action c a t) | F6 c => lift F6 (f6_set_action c a t)
  end.
Definition fin_convert (c : fin) (i : list R) (t : R) : call fin (list R) :=
  match c with
  | F1 c => lift F1 (f1_convert c i t) | F2 c => lift F2 (f2_convert c i t)
  | F4 c => lift F4 (f4_convert c i t) | F6 c => lift F6 (f6_convert c i t)
  end.
Definition fin_i_sup (c : fin) (i : list R) : res R :=
  match c with
  | F1 c => f1_i_sup c i | F2 c => f2_i_sup c i | F4 c => f4_i_sup c i | F6 c => f6_i_sup c i
  end.
Definition fin_reset (c : fin) : call fin (list R) :=
  match c with
  | F1 c => lift F1 (f1_reset c) | F2 c => lift F2 (f2_reset c)
  | F4 c => lift F4 (f4_reset c) | F6 c => lift F6 (f6_reset c)
  end.
Definition fin_set_tau (v : R) (c : fin) : fin :=
  match c with
  | F1 c => F1 (f1_set_tau v c) | F2 c => F2 (f2_set_tau v c)
  | F4 c => F4 (f4_set_tau v c) | F6 c => F6 (f6_set_tau v c)
  end.
(** Declared spaces: action_space.n, voltages and currents (235-237, 266-268,
    332-334, 782-786). *)
Definition fin_n (c : fin) : Z := match c with F1 _ => 2 | F2 _ => 3 | F4 _ => 4 | F6 _ => 8 end%Z.
Definition fin_u_low (c : fin) : list R :=
  match c with F1 _ | F2 _ => [0] | F4 _ => [-1] | F6 _ => [-1; -1; -1] end.
Definition fin_u_high (c : fin) : list R :=
  match c with F1 _ | F2 _ | F4 _ => [1] | F6 _ => [1; 1; 1] end.
(** [np.squeeze(subconverter.voltages.shape) or 1], 554-555; voltages and currents
    have the same shape for every elementary converter. *)
Definition fin_dim (c : fin) : nat := match c with F6 _ => 3 | _ => 1 end.

(** ** FiniteMultiConverter, 498-612: a list of elementary converters.  Its own
    [_tau] is only read through the property and not modelled. *)
(** [convert], 580-588: slices of the current vector by the voltage dimensions. *)
Fixpoint fm_convert (cs : list fin) (i : list R) (t : R) : call (list fin) (list R) :=
  match cs with
  | [] => ([], Ok [])
  | c :: cs' =>
      let (c', u) := fin_convert c (firstn (fin_dim c) i) t in
      match u with
      | Err e => (c' :: cs', Err e)
      | Ok u => let (cs'', us) := fm_convert cs' (skipn (fin_dim c) i) t in
                (c' :: cs'', do us <- us; Ok (u ++ us))
      end
  end.
(** The loop of [set_action], 600-601: [zip] with the action. *)
Fixpoint fm_set_all (cs : list fin) (a : list Z) (t : R) : call (list fin) (list R) :=
  match cs, a with
  | c :: cs', a0 :: a' =>
      let (c', ts) := fin_set_action c a0 t in
      match ts with
      | Err e => (c' :: cs', Err e)
      | Ok ts => let (cs'', rest) := fm_set_all cs' a' t in
                 (c' :: cs'', do rest <- rest; Ok (ts ++ rest))
      end
  | _, _ => (cs, Ok [])
  end.
(** [set_action], 597-602 *)
Definition fm_set_action (cs : list fin) (a : list Z) (t : R) : call (list fin) (list R) :=
  let (cs', ts) := fm_set_all cs a t in (cs', do ts <- ts; Ok (sort_set ts)).
(** [i_sup], 604-612 *)
Fixpoint fm_i_sup (cs : list fin) (i : list R) : res R :=
  match cs with
  | [] => Ok 0
  | c :: cs' => do x <- fin_i_sup c (firstn (fin_dim c) i);
                do r <- fm_i_sup cs' (skipn (fin_dim c) i); Ok (x + r)
  end.
(** [reset], 590-595 *)
Fixpoint fm_reset (cs : list fin) : call (list fin) (list R) :=
  match cs with
  | [] => ([], Ok [])
  | c :: cs' => let (c', u) := fin_reset c in
                let (cs'', us) := fm_reset cs' in
                (c' :: cs'', do u <- u; do us <- us; Ok (u ++ us))
  end.
(** [tau] setter, 521-525 *)
Definition fm_set_tau (v : R) (cs : list fin) : list fin := map (fin_set_tau v) cs.
(** [MultiDiscrete([n1, ...]).contains], the declared action space 576. *)
Definition fm_contains (cs : list fin) (a : list Z) : Prop :=
  Forall2 (fun c x => 0 <= x < fin_n c)%Z cs a.

(** ** Continuous converters, 130-184 *)
(** One- and two-quadrant: sampling time, interlocking time, applied duty cycle.
    (The action start time is only used for the returned time.) *)
Record cq := { cq_tau : R; cq_il : R; cq_act : R }.
(** The reset action is [[0]], 138. *)
Definition cq_new (tau il : R) : cq := {| cq_tau := tau; cq_il := il; cq_act := 0 |}.
(** [set_action], 144-146: Python's min/max on one-element arrays.  For arrays of
    more than one entry numpy raises ValueError (ambiguous truth value); what
    happens for empty arrays depends on the numpy version, here ValueError too. *)
Definition cq_set_action (c : cq) (a : list R) (t : R) : call cq (list R) :=
  match a with
  | [x] => ({| cq_tau := cq_tau c; cq_il := cq_il c; cq_act := Rmin (Rmax x 0) 1 |}, Ok [t + cq_tau c])
  | _ => (c, Err ValueError)
  end.
Definition cq_reset (c : cq) : cq := {| cq_tau := cq_tau c; cq_il := cq_il c; cq_act := 0 |}.
Definition cq_set_tau (v : R) (c : cq) : cq := {| cq_tau := v; cq_il := cq_il c; cq_act := cq_act c |}.
(** [_interlock], 177-184 *)
Definition interlock (c : cq) (i : R) : R := np_sign i / cq_tau c * cq_il c.
(** ContOneQuadrantConverter [convert], 148-158 with 391-397 *)
Definition c1_convert (c : cq) (i : R) : R :=
  Rmin (Rmax ((if rle 0 i then cq_act c else 1) - 0) 0) 1.
(** 399-401 *)
Definition c1_i_sup (c : cq) (i : R) : R := cq_act c * i.
(** ContTwoQuadrantConverter [convert], 148-158 with 425-427 *)
Definition c2_convert (c : cq) (i : R) : R := Rmin (Rmax (cq_act c - interlock c i) 0) 1.
(** 429-435 *)
Definition c2_i_sup (c : cq) (i : R) : R :=
  (cq_act c + cq_il c / cq_tau c * ((if rlt i 0 then 1 else 0) - cq_act c)) * i.

(** ContFourQuadrantConverter, 438-495 *)
Record c4 := { c4_tau : R; c4_a : cq; c4_b : cq }.
Definition c4_new (tau il : R) : c4 := {| c4_tau := tau; c4_a := cq_new tau il; c4_b := cq_new tau il |}.
(** ContB6BridgeConverter, 842-911 *)
Record c6 := { c6_tau : R; c6_a : cq; c6_b : cq; c6_c : cq }.
Definition c6_new (tau il : R) : c6 :=
  {| c6_tau := tau; c6_a := cq_new tau il; c6_b := cq_new tau il; c6_c := cq_new tau il |}.

Inductive con := C1 (c : cq) | C2 (c : cq) | C4 (c : c4) | C6 (c : c6).

(** [set_action]: 144-146, 485-491, 897-903 *)
Definition con_set_action (c : con) (a : list R) (t : R) : call con (list R) :=
  match c with
  | C1 q => lift C1 (cq_set_action q a t)
  | C2 q => lift C2 (cq_set_action q a t)
  | C4 q =>
      match a with
      | [x] => let (p, ts) := cq_set_action (c4_a q) [/2 * (x + 1)] t in
               let (n, us) := cq_set_action (c4_b q) [- /2 * (x - 1)] t in
               (C4 {| c4_tau := c4_tau q; c4_a := p; c4_b := n |},
                do ts <- ts; do us <- us; Ok (sort_set (ts ++ us)))
      | _ => (c, Err ValueError)
      end
  | C6 q =>
      match a with
      | x :: y :: z :: _ =>
          let (p, ts) := cq_set_action (c6_a q) [/2 * (x + 1)] t in
          let (n, us) := cq_set_action (c6_b q) [/2 * (y + 1)] t in
          let (m, vs) := cq_set_action (c6_c q) [/2 * (z + 1)] t in
          (C6 {| c6_tau := c6_tau q; c6_a := p; c6_b := n; c6_c := m |},
           do ts <- ts; do us <- us; do vs <- vs; Ok (sort_set (ts ++ us ++ vs)))
      | _ => (c, Err IndexError)     (* the state of the first half bridges after this error is not modelled *)
      end
  end.
(** [convert]: 148-158, 481-483 (both half bridges get the same current), 888-895 *)
Definition con_convert (c : con) (i : list R) (t : R) : res (list R) :=
  match c with
  | C1 q => do i0 <- head_r i; Ok [c1_convert q i0]
  | C2 q => do i0 <- head_r i; Ok [c2_convert q i0]
  | C4 q => do i0 <- head_r i; Ok [c2_convert (c4_a q) i0 - c2_convert (c4_b q) i0]
  | C6 q => do i0 <- nth_r 0 i; do i1 <- nth_r 1 i; do i2 <- nth_r 2 i;
            Ok [c2_convert (c6_a q) i0 - /2; c2_convert (c6_b q) i1 - /2; c2_convert (c6_c q) i2 - /2]
  end.
(** [i_sup]: 399-401, 429-435, 493-495, 909-911 *)
Definition con_i_sup (c : con) (i : list R) : res R :=
  match c with
  | C1 q => do i0 <- head_r i; Ok (c1_i_sup q i0)
  | C2 q => do i0 <- head_r i; Ok (c2_i_sup q i0)
  | C4 q => do i0 <- head_r i; Ok (c2_i_sup (c4_a q) i0 + c2_i_sup (c4_b q) (- i0))
  | C6 q => Ok (rsum (map2 c2_i_sup [c6_a q; c6_b q; c6_c q] i))
  end.
(** [reset]: 45-54, 475-479, 880-886 *)
Definition con_reset (c : con) : call con (list R) :=
  match c with
  | C1 q => (C1 (cq_reset q), Ok [0])
  | C2 q => (C2 (cq_reset q), Ok [0])
  | C4 q => (C4 {| c4_tau := c4_tau q; c4_a := cq_reset (c4_a q); c4_b := cq_reset (c4_b q) |}, Ok [0])
  | C6 q => (C6 {| c6_tau := c6_tau q; c6_a := cq_reset (c6_a q); c6_b := cq_reset (c6_b q);
                   c6_c := cq_reset (c6_c q) |}, Ok [0 - /2; 0 - /2; 0 - /2])
  end.
(** [tau] setter of the base class, 31-33: half bridges of 4QC and B6 keep theirs. *)
Definition con_set_tau (v : R) (c : con) : con :=
  match c with
  | C1 q => C1 (cq_set_tau v q)
  | C2 q => C2 (cq_set_tau v q)
  | C4 q => C4 {| c4_tau := v; c4_a := c4_a q; c4_b := c4_b q |}
  | C6 q => C6 {| c6_tau := v; c6_a := c6_a q; c6_b := c6_b q; c6_c := c6_c q |}
  end.
Definition con_u_low (c : con) : list R :=
  match c with C1 _ | C2 _ => [0] | C4 _ => [-1] | C6 _ => [-1; -1; -1] end.
Definition con_u_high (c : con) : list R :=
  match c with C1 _ | C2 _ | C4 _ => [1] | C6 _ => [1; 1; 1] end.
Definition con_a_low (c : con) : list R :=
  match c with C1 _ | C2 _ => [0] | C4 _ => [-1] | C6 _ => [-1; -1; -1] end.
Definition con_a_high (c : con) : list R :=
  match c with C1 _ | C2 _ | C4 _ => [1] | C6 _ => [1; 1; 1] end.
Definition con_dim (c : con) : nat := match c with C6 _ => 3 | _ => 1 end.

(** ** ContMultiConverter, 615-740 *)
Fixpoint cm_set_all (cs : list con) (a : list R) (t : R) : call (list con) (list R) :=
  match cs with
  | [] => ([], Ok [])
  | c :: cs' =>
      let (c', ts) := con_set_action c (firstn (con_dim c) a) t in
      match ts with
      | Err e => (c' :: cs', Err e)
      | Ok ts => let (cs'', rest) := cm_set_all cs' (skipn (con_dim c) a) t in
                 (c' :: cs'', do rest <- rest; Ok (ts ++ rest))
      end
  end.
Definition cm_set_action (cs : list con) (a : list R) (t : R) : call (list con) (list R) :=
  let (cs', ts) := cm_set_all cs a t in (cs', do ts <- ts; Ok (sort_set ts)).
Fixpoint cm_convert (cs : list con) (i : list R) (t : R) : res (list R) :=
  match cs with
  | [] => Ok []
  | c :: cs' => do u <- con_convert c (firstn (con_dim c) i) t;
                do us <- cm_convert cs' (skipn (con_dim c) i) t; Ok (u ++ us)
  end.
Fixpoint cm_i_sup (cs : list con) (i : list R) : res R :=
  match cs with
  | [] => Ok 0
  | c :: cs' => do x <- con_i_sup c (firstn (con_dim c) i);
                do r <- cm_i_sup cs' (skipn (con_dim c) i); Ok (x + r)
  end.

(** ** Histories: any sequence of method calls on a finite converter *)
Inductive fop :=
| OpSet (a : Z) (t : R) | OpConvert (i : list R) (t : R) | OpISup (i : list R)
| OpReset | OpTau (v : R).
Definition fin_step (c : fin) (o : fop) : fin :=
  match o with
  | OpSet a t => fst (fin_set_action c a t)
  | OpConvert i t => fst (fin_convert c i t)
  | OpISup _ => c
  | OpReset => fst (fin_reset c)
  | OpTau v => fin_set_tau v c
  end.
Definition fin_run (c : fin) (ops : list fop) : fin := fold_left fin_step ops c.
Inductive fin_kind := K1 | K2 | K4 | K6.
Definition fin_new (k : fin_kind) (tau il : R) : fin :=
  match k with
  | K1 => F1 (f1_new tau il) | K2 => F2 (f2_new tau il)
  | K4 => F4 (f4_new tau il) | K6 => F6 (f6_new tau il)
  end.

(** The same for a multi converter over elementary converters with any own
    sampling and interlocking times. *)
Inductive mop :=
| MopSet (a : list Z) (t : R) | MopConvert (i : list R) (t : R) | MopReset | MopTau (v : R).
Definition fm_step (cs : list fin) (o : mop) : list fin :=
  match o with
  | MopSet a t => fst (fm_set_action cs a t)
  | MopConvert i t => fst (fm_convert cs i t)
  | MopReset => fst (fm_reset cs)
  | MopTau v => fm_set_tau v cs
  end.
Definition fm_run (cs : list fin) (ops : list mop) : list fin := fold_left fm_step ops cs.
Definition fm_new (spec : list (fin_kind * R * R)) : list fin :=
  map (fun p => let '(k, tau, il) := p in fin_new k tau il) spec.

(** Histories of a continuous converter. *)
Inductive cop := CopSet (a : list R) (t : R) | CopReset | CopTau (v : R).
Definition con_step (c : con) (o : cop) : con :=
  match o with
  | CopSet a t => fst (con_set_action c a t)
  | CopReset => fst (con_reset c)
  | CopTau v => con_set_tau v c
  end.
Definition con_run (c : con) (ops : list cop) : con := fold_left con_step ops c.
Inductive con_kind := KC1 | KC2 | KC4 | KC6.
Definition con_new (k : con_kind) (tau il : R) : con :=
  match k with
  | KC1 => C1 (cq_new tau il) | KC2 => C2 (cq_new tau il)
  | KC4 => C4 (c4_new tau il) | KC6 => C6 (c6_new tau il)
  end.
