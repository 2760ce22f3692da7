(** Model of src/gym_electric_motor/physical_system_wrappers/ and observers/observer.py.

    A physical system is what its callers see of it: the announced data ([info]) and the two
    methods [reset] and [simulate] on a state of any type.  The innermost system is arbitrary
    and may raise; a wrapper turns one such machine into another.  A failing call leaves the
    changes made so far.  Arrays are values: every inner system returns a freshly computed
    array, so the in-place assignment in StateNoiseProcessor has no further effect. *)
From Verif Require Import PyBase PyDict Conv_Model Transform_Model PhysSys_Model.
Local Open Scope string_scope. Local Open Scope list_scope. Local Open Scope R_scope.

(** Action spaces (gymnasium.spaces) and actions.  [ANest]: a list holding one integer
    array. *)
Inductive aspace := SDisc (n : Z) | SMulti (nvec : list Z) | SBox (n : nat) | SOther.
Inductive action := ADisc (n : Z) | AMulti (l : list Z) | ABox (l : list R) | ANest (l : list Z).

(** The motor as far as wrappers look at it: isinstance ThreePhaseMotor, isinstance
    InductionMotor, [motor_parameter]. *)
Record minfo := { mi_three : bool; mi_induction : bool; mi_par : dict R }.

(** Announced data: [state_names], [state_positions], [limits], [nominal_state],
    [state_space.low], [.high], [tau], [action_space], [dead_time] (None: no such attribute)
    and [electrical_motor], physical_system_wrapper.py 14-79.  Limits are finite here. *)
Record info := {
  i_names : list string; i_pos : dict nat; i_limits : list R; i_nominal : list R; i_low : list R; i_high : list R;
  i_tau : R; i_act : aspace; i_dead : option nat; i_motor : minfo }.
Record machine (S : Type) := { m_info : info; m_reset : S -> call S (list R); m_sim : action -> S -> call S (list R) }.
Arguments m_info {S}. Arguments m_reset {S}. Arguments m_sim {S}.

(** [{key: index for index, key in enumerate(names)}] *)
Definition positions (names : list string) : dict nat := dict_of_pairs (combine names (seq 0 (length names))).
(** PhysicalSystemWrapper.set_physical_system, 95-106: attributes a wrapper does not set are
    those of the inner system (properties 14-79 and [__getattr__], 113-114). *)
Definition wrap_info (i : info) : info :=
  {| i_names := i_names i; i_pos := positions (i_names i); i_limits := i_limits i; i_nominal := i_nominal i; i_low := i_low i; i_high := i_high i;
     i_tau := i_tau i; i_act := i_act i; i_dead := i_dead i; i_motor := i_motor i |}.

(** Elementwise product; other lengths raise (broadcasting of length 1 is not modelled). *)
Definition np_mul (a b : list R) : res (list R) := if Nat.eqb (length a) (length b) then Ok (map2 Rmult a b) else Err ValueError.
Definition np_quot (a b : list R) : res (list R) := if Nat.eqb (length a) (length b) then Ok (map2 Rdiv a b) else Err ValueError.
(** [np.delete(l, i)] *)
Fixpoint delete_at {A} (i : nat) (l : list A) : list A :=
  match l, i with [], _ => [] | _ :: l', O => l' | x :: l', S i' => x :: delete_at i' l' end.
Definition np_delete {A} (i : option nat) (l : list A) : res (list A) :=
  match i with None => Ok l | Some i => if Nat.ltb i (length l) then Ok (delete_at i l) else Err IndexError end.

(** Result of an inner call mapped by a computation. *)
Definition post {S S' A B} (up : S -> S') (f : A -> res B) (c : call S A) : call S' B := (up (fst c), do a <- snd c; f a).

(** ** DeadTimeProcessor, dead_time_processor.py *)
Section Dead.
Context {S Q : Type}.
(** [Q]: state of the [reset_action] callable.  [dd_deque]: leftmost element first. *)
Record dead := { dd_deque : list action; dd_src : Q; dd_in : S }.
(** [deque.extend] with [maxlen = d]: the leftmost elements are dropped. *)
Definition lastn {A} (n : nat) (l : list A) : list A := skipn (length l - n) l.
Definition extend (d : nat) (q new : list action) : list action := lastn d (q ++ new).
(** [deque.pop] removes the rightmost element. *)
Definition pop_right (q : list action) : option (list action * action) :=
  match rev q with [] => None | a :: q' => Some (rev q', a) end.
(** [deque.appendleft] with [maxlen = d] *)
Definition append_left (d : nat) (a : action) (q : list action) : list action := firstn d (a :: q).
(** [reset], 63-72: the inner system is reset first. *)
Definition dead_reset (d : nat) (src : Q -> call Q (list action)) (m : machine S) (x : dead) : call dead (list R) :=
  let (s, r) := m_reset m (dd_in x) in
  match r with
  | Err e => ({| dd_deque := dd_deque x; dd_src := dd_src x; dd_in := s |}, Err e)
  | Ok st =>
      let (q, l) := src (dd_src x) in
      match l with
      | Err e => ({| dd_deque := []; dd_src := q; dd_in := s |}, Err e)
      | Ok l => ({| dd_deque := extend d [] l; dd_src := q; dd_in := s |}, Ok st)
      end
  end.
(** [simulate], 74-85; [pop] of an empty deque is an IndexError. *)
Definition dead_sim (d : nat) (m : machine S) (a : action) (x : dead) : call dead (list R) :=
  match pop_right (dd_deque x) with
  | None => (x, Err IndexError)
  | Some (q, act) =>
      let (s, r) := m_sim m act (dd_in x) in
      ({| dd_deque := append_left d a q; dd_src := dd_src x; dd_in := s |}, r)
  end.
Definition dead_info (d : nat) (i : info) : info :=
  {| i_names := i_names i; i_pos := positions (i_names i); i_limits := i_limits i; i_nominal := i_nominal i; i_low := i_low i; i_high := i_high i;
     i_tau := i_tau i; i_act := i_act i; i_dead := Some d; i_motor := i_motor i |}.
Definition dead_machine (d : nat) (src : Q -> call Q (list action)) (m : machine S) : machine dead :=
  {| m_info := dead_info d (m_info m); m_reset := dead_reset d src m; m_sim := dead_sim d m |}.
(** [__init__], 27-38; [steps] is an integer (deque refuses other numbers). *)
Definition dead_new (steps : Z) (src : Q -> call Q (list action)) (m : machine S) : res (machine dead) :=
  do _ <- py_assert (0 <? steps)%Z; Ok (dead_machine (Z.to_nat steps) src m).
End Dead.
Arguments dead : clear implicits.
(** The default reset actions, [set_physical_system], 40-61. *)
Definition default_action (sp : aspace) : res action :=
  match sp with
  | SDisc _ => Ok (ADisc 0)
  | SMulti nvec => Ok (ANest (map (fun _ => 0%Z) nvec))
  | SBox n => Ok (ABox (repeat 0 n))
  | SOther => Err AssertionError
  end.
Definition dead_default {S} (steps : Z) (m : machine S) : res (machine (dead S unit)) :=
  do _ <- py_assert (0 <? steps)%Z;
  do a <- default_action (i_act (m_info m));
  Ok (dead_machine (Z.to_nat steps) (fun q : unit => (q, Ok (repeat a (Z.to_nat steps)))) m).

(** ** CosSinProcessor, cos_sin_processor.py *)
(** [f"cos({angle})"] *)
Definition fun_name (f a : string) : string := String.append f (String.append "(" (String.append a ")")).
Record cossin := { cs_angle : string; cs_remove : bool }.
(** [_get_cos_sin], 75-89 *)
Definition get_cos_sin (idx : nat) (st : list R) : res (list R) := do e <- item st idx; Ok (st ++ [cos (e * PI); sin (e * PI)]).
(** [set_physical_system], 33-50 *)
Definition cs_info (c : cossin) (i : info) : res (nat * info) :=
  do idx <- dict_item (cs_angle c) (i_pos i);
  let rm := if cs_remove c then Some idx else None in
  do low <- np_delete rm (i_low i); do high <- np_delete rm (i_high i);
  do lim <- np_delete rm (i_limits i); do nom <- np_delete rm (i_nominal i); do nms <- np_delete rm (i_names i);
  let names := nms ++ [fun_name "cos" (cs_angle c); fun_name "sin" (cs_angle c)] in
  Ok (idx, {| i_names := names; i_pos := positions names; i_limits := lim ++ [1; 1]; i_nominal := nom ++ [1; 1]; i_low := low ++ [-1; -1]; i_high := high ++ [1; 1];
              i_tau := i_tau i; i_act := i_act i; i_dead := i_dead i; i_motor := i_motor i |}).
(** [reset], 52-55, and [simulate], 57-62 (with [_delete_angle], 64-73) *)
Definition cs_machine {S} (c : cossin) (m : machine S) : res (machine S) :=
  do ii <- cs_info c (m_info m);
  let idx := fst ii in
  Ok {| m_info := snd ii;
        m_reset := fun s => post (fun s => s) (get_cos_sin idx) (m_reset m s);
        m_sim := fun a s => post (fun s => s) (fun st => do x <- get_cos_sin idx st; if cs_remove c then np_delete (Some idx) x else Ok x) (m_sim m a s) |}.

(** ** CurrentSumProcessor, current_sum_processor.py *)
Record cursum := { cu_currents : list string; cu_max : bool }.
(** Python's [max] of an array and [np.sum] *)
Definition py_max (l : list R) : res R := match l with [] => Err ValueError | x :: l' => Ok (fold_left Rmax l' x) end.
Definition cu_limit (c : cursum) (l : list R) : res R := if cu_max c then py_max l else Ok (rsum l).
Fixpoint dict_items {V} (ks : list string) (d : dict V) : res (list V) :=
  match ks with [] => Ok [] | k :: ks' => do v <- dict_item k d; do vs <- dict_items ks' d; Ok (v :: vs) end.
(** [set_physical_system], 24-44 *)
Definition cu_info (c : cursum) (i : info) : res (list nat * info) :=
  do idx <- dict_items (cu_currents c) (i_pos i);
  do ll <- select idx (i_limits i); do lim <- cu_limit c ll;
  do nn <- select idx (i_nominal i); do nom <- cu_limit c nn;
  let names := i_names i ++ ["i_sum"%string] in
  do p <- str_index "i_sum" names;
  Ok (idx, {| i_names := names; i_pos := dict_set "i_sum" p (i_pos i); i_limits := i_limits i ++ [lim]; i_nominal := i_nominal i ++ [nom];
              i_low := i_low i ++ [-1]; i_high := i_high i ++ [1]; i_tau := i_tau i; i_act := i_act i; i_dead := i_dead i; i_motor := i_motor i |}).
(** [_get_current_sum], 56-65 *)
Definition add_sum (idx : list nat) (st : list R) : res (list R) := do c <- select idx st; Ok (st ++ [rsum c]).
(** [reset], 46-49, and [simulate], 51-54 *)
Definition cu_machine {S} (c : cursum) (m : machine S) : res (machine S) :=
  do ii <- cu_info c (m_info m);
  Ok {| m_info := snd ii; m_reset := fun s => post (fun s => s) (add_sum (fst ii)) (m_reset m s); m_sim := fun a s => post (fun s => s) (add_sum (fst ii)) (m_sim m a s) |}.

(** ** FluxObserver, flux_observer.py *)
Section Flux.
Context {S : Type}.
(** [_integrated] (real and imaginary part) and the inner system *)
Record flux := { fl_psi : R * R; fl_in : S }.
Record flux_par := { fp_lm : R; fp_lr : R; fp_rr : R; fp_p : R; fp_idx : list nat; fp_omega : nat; fp_limits : list R }.
(** [set_physical_system], 54-78 *)
Definition flux_info (currents : list string) (i : info) : res (flux_par * info) :=
  do _ <- py_assert (mi_induction (i_motor i));
  let mp := mi_par (i_motor i) in
  do lm <- dict_item "l_m" mp; do lsr <- dict_item "l_sigr" mp; do rr <- dict_item "r_r" mp; do p <- dict_item "p" mp;
  do isd <- str_index "i_sd" (i_names i);
  do lim <- item (i_limits i) isd;
  let psi := lm * lim in
  do idx <- dict_items currents (i_pos i);
  do om <- dict_item "omega" (i_pos i);
  let names := i_names i ++ ["psi_abs"; "psi_angle"]%string in
  let limits := i_limits i ++ [psi; PI] in
  Ok ({| fp_lm := lm; fp_lr := lm + lsr; fp_rr := rr; fp_p := p; fp_idx := idx; fp_omega := om; fp_limits := limits |},
      {| i_names := names; i_pos := positions names; i_limits := limits; i_nominal := i_nominal i ++ [psi; PI];
         i_low := i_low i ++ [- psi; - PI]; i_high := i_high i ++ [psi; PI]; i_tau := i_tau i; i_act := i_act i; i_dead := i_dead i; i_motor := i_motor i |}).
(** [reset], 80-83 *)
Definition flux_reset (m : machine S) (x : flux) : call flux (list R) :=
  post (fun s => {| fl_psi := (0, 0); fl_in := s |}) (fun st => Ok (st ++ [0; 0])) (m_reset m (fl_in x)).
(** One update of the flux from the current vector and the electrical speed, 95-101 *)
Definition flux_update (p : flux_par) (tau ia ib w : R) (psi : R * R) : R * R :=
  let a := fp_rr p / fp_lr p in
  let da := ia * fp_rr p * fp_lm p / fp_lr p - (fst psi * a - snd psi * - w) in
  let db := ib * fp_rr p * fp_lm p / fp_lr p - (fst psi * - w + snd psi * a) in
  (fst psi + da * tau, snd psi + db * tau).
(** [simulate], 85-102 *)
Definition flux_sim (p : flux_par) (m : machine S) (a : action) (x : flux) : call flux (list R) :=
  let (s, r) := m_sim m a (fl_in x) in
  match (do sn <- r;
         do st <- np_mul sn (i_limits (m_info m));
         do i <- select (fp_idx p) st; do w <- item st (fp_omega p);
         do ab <- t_23 i; do ia <- item ab 0; do ib <- item ab 1;
         Ok (st, flux_update p (i_tau (m_info m)) ia ib (w * fp_p p) (fl_psi x))) with
  | Err e => ({| fl_psi := fl_psi x; fl_in := s |}, Err e)
  | Ok (st, psi) =>
      ({| fl_psi := psi; fl_in := s |},
       np_quot (st ++ [sqrt (fst psi * fst psi + snd psi * snd psi); np_arctan2 (snd psi) (fst psi)]) (fp_limits p))
  end.
Definition flux_machine (currents : list string) (m : machine S) : res (machine flux) :=
  do pi <- flux_info currents (m_info m);
  Ok {| m_info := snd pi; m_reset := flux_reset m; m_sim := flux_sim (fst pi) m |}.
End Flux.
Arguments flux : clear implicits.

(** ** StateNoiseProcessor, state_noise_processor.py *)
Section Noise.
Context {S G Q : Type}.
(** [spawn]: [default_rng(seed_sequence.spawn(1)[0])] with the new state of the sequence;
    [draw]: the chosen distribution of the generator for [size=(rows, columns)], which may
    refuse its keyword arguments. *)
Context (spawn : Q -> G * Q) (draw : nat -> nat -> G -> call G (list (list R))).
Record noise := { no_ptr : nat; no_rows : option (list (list R)); no_gen : G; no_seq : Q; no_in : S }.
(** [_new_noise], 94-98 *)
Definition new_noise (len : nat) (idx : list nat) (x : noise) : call noise unit :=
  let (g, r) := draw len (length idx) (no_gen x) in
  match r with
  | Err e => ({| no_ptr := 0; no_rows := no_rows x; no_gen := g; no_seq := no_seq x; no_in := no_in x |}, Err e)
  | Ok rows => ({| no_ptr := 0; no_rows := Some rows; no_gen := g; no_seq := no_seq x; no_in := no_in x |}, Ok tt)
  end.
(** [_add_noise], 83-92; [None[i]] is a TypeError *)
Definition add_noise (idx : list nat) (x : noise) (st : list R) : call noise (list R) :=
  match (do old <- select idx st;
         do row <- match no_rows x with None => Err TypeError | Some rows => match nth_error rows (no_ptr x) with Some r => Ok r | None => Err IndexError end end;
         do new <- (if Nat.eqb (length old) (length row) then Ok (map2 Rplus old row) else Err ValueError);
         put idx new st) with
  | Err e => (x, Err e)
  | Ok st' => ({| no_ptr := Datatypes.S (no_ptr x); no_rows := no_rows x; no_gen := no_gen x; no_seq := no_seq x; no_in := no_in x |}, Ok st')
  end.
(** [reset], 71-75: PhysicalSystemWrapper.reset (120-123) spawns a new generator first. *)
Definition noise_reset (len : nat) (idx : list nat) (m : machine S) (x : noise) : call noise (list R) :=
  let (g, q) := spawn (no_seq x) in
  let (s, r) := m_reset m (no_in x) in
  let x1 := {| no_ptr := no_ptr x; no_rows := no_rows x; no_gen := g; no_seq := q; no_in := s |} in
  match r with
  | Err e => (x1, Err e)
  | Ok st =>
      let (x2, u) := new_noise len idx x1 in
      match u with Err e => (x2, Err e) | Ok _ => add_noise idx x2 st end
  end.
(** [simulate], 77-81 *)
Definition noise_sim (len : nat) (idx : list nat) (m : machine S) (a : action) (x : noise) : call noise (list R) :=
  let (x1, u) := if Nat.leb len (no_ptr x) then new_noise len idx x else (x, Ok tt) in
  match u with
  | Err e => (x1, Err e)
  | Ok _ =>
      let (s, r) := m_sim m a (no_in x1) in
      let x2 := {| no_ptr := no_ptr x1; no_rows := no_rows x1; no_gen := no_gen x1; no_seq := no_seq x1; no_in := s |} in
      match r with Err e => (x2, Err e) | Ok st => add_noise idx x2 st end
  end.
(** [states]: a list of names or a string, over whose characters the comprehension in
    [set_physical_system] (65-69) runs. *)
Inductive states := StList (l : list string) | StStr (s : string).
Fixpoint chars (s : string) : list string :=
  match s with String.EmptyString => [] | String.String c s' => String.String c String.EmptyString :: chars s' end.
Definition noise_machine (st : states) (len : nat) (m : machine S) : res (machine noise) :=
  do idx <- dict_items (match st with StList l => l | StStr s => chars s end) (i_pos (m_info m));
  Ok {| m_info := wrap_info (m_info m); m_reset := noise_reset len idx m; m_sim := noise_sim len idx m |}.
(** [PhysicalSystemWrapper.seed], 108-111: only the inner system is seeded. *)
Definition noise_seed (inner_seed : S -> S) (x : noise) : noise :=
  {| no_ptr := no_ptr x; no_rows := no_rows x; no_gen := no_gen x; no_seq := no_seq x; no_in := inner_seed (no_in x) |}.
End Noise.
Arguments noise : clear implicits.

(** ** DqToAbcActionProcessor, dq_to_abc_action_processor.py *)
Section Dq.
Context {S : Type}.
(** Registered motor types, 106-115 and 150; [DqDfim ctor]: [ctor] if the physical
    system was passed to the constructor, which then overwrites the flux index (122-125). *)
Inductive dqkind := DqClassic (angle : string) | DqDfim (ctor : bool) | DqEesm.
Definition dq_angle_name (k : dqkind) : string := match k with DqClassic a => a | _ => "epsilon"%string end.
Record dq_par := { dp_omega : nat; dp_angle : nat; dp_p : R; dp_adv : R; dp_flux : option nat }.
(** [_state] (None before the first reset) and the inner system *)
Record dqs := { dq_state : option (list R); dq_in : S }.
(** [set_physical_system], 57-75 and 145-148; action spaces 93-95, 118-120, 152-154 *)
Definition dq_info (k : dqkind) (i : info) : res (dq_par * info) :=
  do _ <- py_assert (mi_three (i_motor i));
  do om <- str_index "omega" (i_names i);
  do an <- str_index (dq_angle_name k) (i_names i);
  do p <- dict_item "p" (mi_par (i_motor i));
  do fx <- match k with DqDfim ctor => do f <- str_index "psi_angle" (i_names i); Ok (if ctor then None else Some f) | _ => Ok None end;
  let adv := 1 / 2 + match i_dead i with Some d => INR d | None => 0 end in
  let i' := wrap_info i in
  Ok ({| dp_omega := om; dp_angle := an; dp_p := p; dp_adv := adv; dp_flux := fx |},
      {| i_names := i_names i'; i_pos := i_pos i'; i_limits := i_limits i'; i_nominal := i_nominal i'; i_low := i_low i'; i_high := i_high i'; i_tau := i_tau i';
         i_act := SBox (match k with DqClassic _ => 2 | DqDfim _ => 4 | DqEesm => 3 end); i_dead := i_dead i'; i_motor := i_motor i' |}).
(** [reset], 80-84 *)
Definition dq_reset (m : machine S) (x : dqs) : call dqs (list R) :=
  let (s, r) := m_reset m (dq_in x) in
  match (do st <- r; do y <- np_mul st (i_limits (m_info m)); Ok (st, y)) with
  | Err e => ({| dq_state := dq_state x; dq_in := s |}, Err e)
  | Ok (st, y) => ({| dq_state := Some y; dq_in := s |}, Ok st)
  end.
(** [_advance_angle], 86-88 *)
Definition advance_angle (p : dq_par) (tau : R) (st : list R) : res R :=
  do e <- item st (dp_angle p); do w <- item st (dp_omega p); Ok (e + dp_adv p * tau * w * dp_p p).
(** [_transformation], 13-24 *)
Definition transformation (a : list R) (angle : R) : res (list R) := do ab <- q a angle; t_32 ab.
(** The action handed to the inner system: 99-100, 134-139, 161-163.  Actions are real
    vectors (others raise TypeError here, a simplification).  With the lost flux index,
    [state[None]] is a matrix and the product in [t_32] raises ValueError. *)
Definition abc_action (k : dqkind) (p : dq_par) (tau : R) (st : list R) (a : list R) : res (list R) :=
  do e <- advance_angle p tau st;
  match k with
  | DqClassic _ => transformation a e
  | DqDfim _ =>
      do s <- transformation (firstn 2 a) e;
      do r <- match dp_flux p with None => Err ValueError | Some f => do fx <- item st f; transformation (skipn 2 a) (fx - e) end;
      Ok (s ++ r)
  | DqEesm =>
      do s <- transformation (removelast a) e;
      match rev a with [] => Err IndexError | l :: _ => Ok (s ++ [l]) end
  end.
(** [simulate], 97-103, 127-143, 159-166 *)
Definition dq_sim (k : dqkind) (p : dq_par) (m : machine S) (a : action) (x : dqs) : call dqs (list R) :=
  match (do st <- match dq_state x with None => Err TypeError | Some st => Ok st end;
         do v <- match a with ABox v => Ok v | _ => Err TypeError end;
         abc_action k p (i_tau (m_info m)) st v) with
  | Err e => (x, Err e)
  | Ok abc =>
      let (s, r) := m_sim m (ABox abc) (dq_in x) in
      match (do st <- r; do y <- np_mul st (i_limits (m_info m)); Ok (st, y)) with
      | Err e => ({| dq_state := dq_state x; dq_in := s |}, Err e)
      | Ok (st, y) => ({| dq_state := Some y; dq_in := s |}, Ok st)
      end
  end.
Definition dq_machine (k : dqkind) (m : machine S) : res (machine dqs) :=
  do pi <- dq_info k (m_info m);
  Ok {| m_info := snd pi; m_reset := dq_reset m; m_sim := dq_sim k (fst pi) m |}.
End Dq.
Arguments dqs : clear implicits.
(** [make], 35-40, with the default angle names of 106-112 *)
Definition dq_make (motor_type : string) : res dqkind :=
  if String.eqb motor_type "PMSM" then Ok (DqClassic "epsilon")
  else if String.eqb motor_type "SCIM" then Ok (DqClassic "psi_angle")
  else if String.eqb motor_type "DFIM" then Ok (DqDfim false)
  else if String.eqb motor_type "EESM" then Ok DqEesm
  else Err AssertionError.

(** ** StateObserver, observers/observer.py *)
(** What it reads of the environment: [state_names] of the physical system, the positions
    [state_filter], the reference names and [current_state] (None before the first step). *)
Record oenv := { oe_names : list string; oe_filter : list nat; oe_refs : list string; oe_state : option (list R) }.
(** [fuse_state_and_next_reference], 33-38, with core.py 176-186 *)
Definition fused_names (e : oenv) : res (list string) :=
  do n <- select (oe_filter e) (oe_names e); Ok (n ++ map (fun r => String.append r "_ref") (oe_refs e)).
(** [pull], 40-52; [names] as fused at construction *)
Definition pull (names : list string) (e : oenv) (state : string) : res (string * R) :=
  if str_in state names then
    do i <- str_index state names;
    match oe_state e with
    | None => Err TypeError
    | Some st => do v <- item st i; Ok (state, v)
    end
  else Err ValueError.
