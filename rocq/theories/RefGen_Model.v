(** Model of src/gym_electric_motor/reference_generators/ and of the class
    ReferenceGenerator in src/gym_electric_motor/core.py 395-509.

    Simplifications of the whole file:
    - Operations before [set_modules] are not modelled.
    - After a raised exception the state of the generators is not tracked: a call
      returns the new state and a value, or the exception.
    - The arguments [state] and [kwargs] are dropped, no generator reads them.
    - [Box] is kept as its pair of bounds; its own checks and dtype are not modelled.
    - Every position in a tree of generators is its own object. *)
From Verif Require Import PyBase PyDict Utils_Model Solver_Model.

(** ** numpy random generators (external) *)
(** [np_seq]: SeedSequence, [np_gen]: Generator.  [np_spawn s]: the generator
    [default_rng(s.spawn(1)[0])] and the advanced sequence.  [np_below n g] is the draw
    behind [integers(a, b)] with [n = b - a].  [np_choice n p g] is the position chosen by
    [choice(list, p=p)] from [n] elements; numpy raises ValueError for bad [p]. *)
Record numpy := {
  np_seq : Type; np_gen : Type;
  np_spawn : np_seq -> np_gen * np_seq;
  np_uniform : np_gen -> R * np_gen;
  np_normal : R -> nat -> np_gen -> list R * np_gen;
  np_laplace : R -> nat -> np_gen -> list R * np_gen;
  np_triangular : np_gen -> R * np_gen;            (* triangular(0, 0.5, 1) *)
  np_below : Z -> np_gen -> Z * np_gen;
  np_choice : nat -> list R -> np_gen -> res (nat * np_gen) }.

(** [integers(a, b)]: ValueError for an empty range. *)
Definition np_integers {N : numpy} (a b : Z) (g : np_gen N) : res (Z * np_gen N) :=
  if (a <? b)%Z then let (d, g') := np_below N (b - a) g in Ok ((a + d)%Z, g') else Err ValueError.

(** ** numpy and Python helpers *)
(** [int(x)] of a float: truncation towards zero. *)
Definition py_int (x : R) : Z := if rlt x 0 then (- Int_part (- x))%Z else Int_part x.
(** [np.linspace(0, stop, n)]. *)
Definition np_linspace (stop : R) (n : nat) : list R := map (fun k => INR k * (stop / INR (n - 1))) (seq 0 n).
(** [x % m] for positive or negative m. *)
Definition py_mod (x m : R) : R := x - m * IZR (Int_part (x / m)).
(** [np.roll(x, s)]: entry i of the result is entry (i - s) mod n. *)
Definition np_roll (x : list R) (s : Z) : list R :=
  map (fun i => nth (Z.to_nat ((Z.of_nat i - s) mod Z.of_nat (length x))) x 0) (seq 0 (length x)).
(** [scipy.signal.sawtooth(t, width)] for widths in [0, 1] (external; from its
    documentation: rises from -1 to 1 on [0, width 2 pi], falls back to -1 on the rest). *)
Definition sawtooth (t width : R) : R :=
  let m := py_mod t (2 * PI) in
  if rlt m (width * 2 * PI) then m / (PI * width) - 1 else (PI * (width + 1) - m) / (PI * (1 - width)).
(** [np.log10] *)
Definition log10 (x : R) : R := ln x / ln 10.

(** ** Boolean masks *)
(** [set_state_array({state: 1}, names).astype(bool)]. *)
Definition state_mask (state : string) (names : list string) : res (list bool) :=
  do a <- set_state_array (InDict [(state, 1)]) names; Ok (map (fun x => negb (req x 0)) a).
(** [array[mask]]: IndexError for different lengths. *)
Fixpoint masked {A} (mask : list bool) (l : list A) : res (list A) :=
  match mask, l with
  | [], [] => Ok []
  | b :: m', a :: l' => do r <- masked m' l'; Ok (if b then a :: r else r)
  | _, _ => Err IndexError
  end.
(** [array[mask][0]] *)
Definition pick {A} (mask : list bool) (l : list A) : res A :=
  do r <- masked mask l; match r with a :: _ => Ok a | [] => Err IndexError end.
(** [reference = zeros; reference[mask] = v]. *)
Definition put_masked (mask : list bool) (v : R) : list R := map (fun b : bool => if b then v else 0) mask.

(** ** Value ranges *)
(** What may be given as a range after construction: a Python number, a numpy number
    (the result of [np.clip] of a number) or a pair. *)
Inductive vrange := VNum (x : R) | VNp (x : R) | VPair (a b : R).
(** [_get_current_value], subepisoded_reference_generator.py 109-119.  For a numpy number
    the method returns None; every caller then uses None in arithmetic (or in [int]),
    which is the TypeError here. *)
Definition current_value {N : numpy} (r : vrange) (g : np_gen N) : res (R * np_gen N) :=
  match r with
  | VNum x => Ok (x, g)
  | VNp _ => Err TypeError
  | VPair a b => let (u, g') := np_uniform N g in Ok ((b - a) * u + a, g')
  end.
(** [np.clip(range, lo, hi)] *)
Definition clip_range (r : vrange) (lo hi : R) : vrange :=
  match r with
  | VNum x => VNp (np_clip x lo hi)
  | VNp x => VNp (np_clip x lo hi)
  | VPair a b => VPair (np_clip a lo hi) (np_clip b lo hi)
  end.

(** Amplitude and offset ranges before [set_modules] may have infinite ends. *)
Inductive ext := MInf | Re (x : R) | PInf.
Inductive erange := ENum (x : R) | EPair (a b : ext).
Definition clip_ext (x : ext) (lo hi : R) : R :=
  match x with MInf => np_clip lo lo hi | Re r => np_clip r lo hi | PInf => hi end.
Definition clip_erange (r : erange) (lo hi : R) : vrange :=
  match r with ENum x => VNp (np_clip x lo hi) | EPair a b => VPair (clip_ext a lo hi) (clip_ext b lo hi) end.
(** [amplitude_range or (0, np.inf)], [offset_range or (-np.inf, np.inf)]; the number 0 is
    falsy too. *)
Definition py_or (r : option erange) (d : erange) : erange :=
  match r with Some (ENum x) => if req x 0 then d else ENum x | Some e => e | None => d end.

(** ** Sub-episoded generators *)
(** The subclasses with their own parameters.  [w_amp] and [w_off]: the ranges given to the
    constructor; [w_set]: their clipped values once [set_modules] ran (one attribute in
    Python). *)
Record wave := { w_amp : erange; w_off : erange; w_freq : vrange; w_set : option (vrange * vrange) }.
Inductive kind :=
| Wiener (sigma : vrange) (initial : option (R * R))
| Laplace (sigma : vrange)
| Sinus (w : wave) | Triangle (w : wave) | Saw (w : wave) | Step (w : wave).

(** sinusoidal_reference_generator.py 31-34, and the same lines of triangle, sawtooth, step. *)
Definition wave_new (amp off : option erange) (freq : vrange) : wave :=
  {| w_amp := py_or amp (EPair (Re 0) PInf); w_off := py_or off (EPair MInf PInf); w_freq := freq; w_set := None |}.

(** [limit_margin]; [LmOther]: any other type. *)
Inductive margin := LmNone | LmNum (x : R) | LmPair (a b : R) | LmOther.

(** [s_seq], [s_gen]: the attributes of RandomComponent. *)
Record sub (N : numpy) := {
  s_state : string; s_lens : vrange; s_margin : margin; s_kind : kind;
  s_value : R; s_len : Z; s_k : nat; s_ref : option (list R);
  s_mask : list bool; s_space : R * R; s_tau : R;
  s_seq : np_seq N; s_gen : np_gen N }.
Arguments s_state {N}. Arguments s_lens {N}. Arguments s_margin {N}. Arguments s_kind {N}. Arguments s_value {N}. Arguments s_len {N}.
Arguments s_k {N}. Arguments s_ref {N}. Arguments s_mask {N}. Arguments s_space {N}. Arguments s_tau {N}. Arguments s_seq {N}. Arguments s_gen {N}.

(** What [set_modules] reads from the physical system.  Simplification: limits are finite
    and non-zero. *)
Record psys := { p_names : list string; p_nominal : list R; p_limits : list R; p_low : list R; p_high : list R; p_tau : R }.

(** [_limit_margin[0]], [_limit_margin[1]]: TypeError if it is no pair. *)
Definition bounds (m : margin) : res (R * R) :=
  match m with LmPair a b => Ok (a, b) | _ => Err TypeError end.

Section Sub.
Context {N : numpy}.

(** [SubepisodedReferenceGenerator.__init__], 14-43, with the RandomComponent base
    (random_component.py 60-62): [seq] is the fresh seed sequence. *)
Definition sub_new (state : string) (lens : vrange) (m : margin) (k : kind) (seq : np_seq N) : res (sub N) :=
  let (g, seq') := np_spawn N seq in
  do l <- current_value lens g;                                             (* 41 *)
  Ok {| s_state := lower state; s_lens := lens; s_margin := m; s_kind := k; s_value := 0;
        s_len := py_int (fst l); s_k := 0; s_ref := None; s_mask := []; s_space := (-1, 1); s_tau := 0; s_seq := seq'; s_gen := snd l |}.

(** The [set_modules] of the subclasses: wiener 25-28, sinusoidal 36-43 (and triangle,
    sawtooth, step). *)
Definition wave_modules (w : wave) (lo hi : R) : wave :=
  let (a, o) := match w_set w with
                | None => (clip_erange (w_amp w) 0 ((hi - lo) / 2), clip_erange (w_off w) lo hi)
                | Some (a, o) => (clip_range a 0 ((hi - lo) / 2), clip_range o lo hi)
                end in
  {| w_amp := w_amp w; w_off := w_off w; w_freq := w_freq w; w_set := Some (a, o) |}.
Definition kind_modules (k : kind) (lo hi : R) : kind :=
  match k with
  | Wiener sg None => Wiener sg (Some (lo, hi))
  | Wiener sg (Some i) => Wiener sg (Some i)
  | Laplace sg => Laplace sg
  | Sinus w => Sinus (wave_modules w lo hi) | Triangle w => Triangle (wave_modules w lo hi)
  | Saw w => Saw (wave_modules w lo hi) | Step w => Step (wave_modules w lo hi)
  end.

(** subepisoded_reference_generator.py 45-64 *)
Definition sub_modules (ps : psys) (s : sub N) : res (sub N) :=
  do rs <- state_mask (s_state s) (p_names ps);                             (* 47 *)
  do lh <- match s_margin s with
           | LmNone =>                                                      (* 50-53 *)
               do nom <- pick rs (p_nominal ps); do lim <- pick rs (p_limits ps);
               do hi <- pick rs (p_high ps); do lo <- pick rs (p_low ps);
               Ok (nom / lim * lo, nom / lim * hi)
           | LmNum x =>                                                     (* 54-57 *)
               do hi <- pick rs (p_high ps); do lo <- pick rs (p_low ps); Ok (x * lo, x * hi)
           | LmPair a b =>                                                  (* 58-61 *)
               do lo <- pick rs (p_low ps); do hi <- pick rs (p_high ps); Ok (a * lo, b * hi)
           | LmOther => Err PlainException                                  (* 63 *)
           end;
  Ok {| s_state := s_state s; s_lens := s_lens s; s_margin := LmPair (fst lh) (snd lh); s_kind := kind_modules (s_kind s) (fst lh) (snd lh);
        s_value := s_value s; s_len := s_len s; s_k := s_k s; s_ref := s_ref s; s_mask := rs; s_space := lh; s_tau := p_tau ps;
        s_seq := s_seq s; s_gen := s_gen s |}.

(** [10 ** self._get_current_value(np.log10(sigma_range))]; the logarithm of a number is a
    numpy number. *)
Definition draw_sigma (r : vrange) (g : np_gen N) : res (R * np_gen N) :=
  do v <- current_value (match r with
                         | VNum x => VNp (log10 x) | VNp x => VNp (log10 x)
                         | VPair a b => VPair (log10 a) (log10 b)
                         end) g;
  Ok (Rpower 10 (fst v), snd v).

(** The loop of the Wiener and Laplace processes, wiener 34-41, laplace 28-35. *)
Fixpoint walk (lo hi v : R) (rs : list R) : list R :=
  match rs with
  | [] => []
  | r :: rs' =>
      let v1 := v + r in
      let v2 := if rlt hi v1 then hi else v1 in
      let v3 := if rlt v2 lo then lo else v2 in
      v3 :: walk lo hi v3 rs'
  end.

(** The common part of the wave forms, sinusoidal 46-53 (triangle 48-56, sawtooth 42-50,
    step 38-46): amplitude, frequency and offset.  [low A]: the lower end to which the
    offset is clipped. *)
Definition draw_wave (w : wave) (hi : R) (low : R -> R) (g : np_gen N) : res (R * R * R * np_gen N) :=
  match w_set w with
  | None => Err TypeError
  | Some (amp, off) =>
      do a <- current_value amp g;
      do f <- current_value (w_freq w) (snd a);
      do o <- current_value (clip_range off (low (fst a)) (hi - fst a)) (snd f);
      Ok (fst a, fst f, fst o, snd o)
  end.

(** [_reset_reference] of the subclasses: the reference of the next [n] steps and the
    generator.  A negative [n] makes numpy raise ValueError.  In [Step] a zero frequency
    raises ZeroDivisionError (for a Python number) or OverflowError (for a drawn one);
    only the former is in the model. *)
Definition new_reference (k : kind) (lo hi value tau : R) (n : Z) (g : np_gen N) : res (list R * np_gen N) :=
  let times m := np_linspace (INR (m - 1) * tau) m in
  if (n <? 0)%Z then Err ValueError else
  let m := Z.to_nat n in
  match k with
  | Wiener sg _ =>                                                          (* wiener 30-41 *)
      do s <- draw_sigma sg g;
      let (rs, g') := np_normal N (fst s) m (snd s) in Ok (walk lo hi value rs, g')
  | Laplace sg =>                                                           (* laplace 24-35 *)
      do s <- draw_sigma sg g;
      let (rs, g') := np_laplace N (fst s) m (snd s) in Ok (walk lo hi value rs, g')
  | Sinus w =>                                                              (* sinusoidal 45-61 *)
      do p <- draw_wave w hi (fun a => - hi + a) g;
      let '(a, f, o, g1) := p in
      let (u, g2) := np_uniform N g1 in
      Ok (map (fun t => np_clip (a * sin (2 * PI * f * t + u * 2 * PI) + o) lo hi) (times m), g2)
  | Triangle w =>                                                           (* triangle 47-74 *)
      do p <- draw_wave w hi (fun a => - hi + a) g;
      let '(a, f, o, g1) := p in
      let (u, g2) := np_uniform N g1 in
      let (width, g3) := np_uniform N g2 in
      Ok (map (fun t => np_clip (a * sawtooth (2 * PI * f * t + u * 2 * PI) width + o) lo hi) (times m), g3)
  | Saw w =>                                                                (* sawtooth 41-60 *)
      do p <- draw_wave w hi (fun a => - hi + a) g;
      let '(a, f, o, g1) := p in
      let (u, g2) := np_uniform N g1 in
      Ok (map (fun t => np_clip (a * sawtooth (2 * PI * f * t + u * 2 * PI) 1 + o) lo hi) (times m), g2)
  | Step w =>                                                               (* step 38-60 *)
      do p <- draw_wave w hi (fun a => lo + a) g;
      let '(a, f, o, g1) := p in
      let (ratio, g2) := np_triangular N g1 in
      if req f 0 then Err ZeroDivisionError else
      let x := map (fun t => np_sign (f * py_mod t (1 / f) - ratio)) (times m) in
      let (phase, g3) := np_uniform N g2 in
      let x := np_roll x (py_int (1 / f / tau * phase)) in
      Ok (map (fun v => np_clip (a * v + o) lo hi) x, g3)
  end.

Definition sub_with (s : sub N) (value : R) (len : Z) (k : nat) (ref : option (list R)) (seq : np_seq N) (g : np_gen N) : sub N :=
  {| s_state := s_state s; s_lens := s_lens s; s_margin := s_margin s; s_kind := s_kind s; s_value := value; s_len := len; s_k := k; s_ref := ref;
     s_mask := s_mask s; s_space := s_space s; s_tau := s_tau s; s_seq := seq; s_gen := g |}.

(** subepisoded_reference_generator.py 93-100 *)
Definition sub_obs (s : sub N) : res (sub N * list R) :=
  do s1 <- (if (s_len s <=? Z.of_nat (s_k s))%Z then
              do l <- current_value (s_lens s) (s_gen s);                   (* 96 *)
              do b <- bounds (s_margin s);
              do r <- new_reference (s_kind s) (fst b) (snd b) (s_value s) (s_tau s) (py_int (fst l)) (snd l);
              Ok (sub_with s (s_value s) (py_int (fst l)) 0 (Some (fst r)) (s_seq s) (snd r))
            else Ok s);
  match s_ref s1 with
  | None => Err TypeError
  | Some r =>
      match nth_error r (s_k s1) with                                       (* 98 *)
      | None => Err IndexError
      | Some v => Ok (sub_with s1 v (s_len s1) (S (s_k s1)) (s_ref s1) (s_seq s1) (s_gen s1), [v])
      end
  end.

(** 88-91 *)
Definition sub_get (s : sub N) : list R := put_masked (s_mask s) (s_value s).

(** 66-86 and, for the Wiener process, wiener 43-49: the initial value is drawn before
    [next_generator].  ReferenceGenerator.reset, core.py 485-505. *)
Definition sub_reset (init : option (list R)) (s : sub N) : res (sub N * (list R * list R)) :=
  do ig <- match s_kind s, init with
           | Wiener _ i, None =>
               match i with
               | None => Err TypeError
               | Some (a, b) => let (u, g) := np_uniform N (s_gen s) in Ok (Some (put_masked (s_mask s) (a + (b - a) * u)), g)
               end
           | _, i => Ok (i, s_gen s)
           end;
  do v <- match fst ig with Some r => pick (s_mask s) r | None => Ok 0 end;  (* 80-83 *)
  let (g, seq) := np_spawn N (s_seq s) in                                    (* 84 *)
  let s1 := sub_with s v (-1) (s_k s) (s_ref s) seq g in                     (* 85 *)
  do o <- sub_obs s1;
  Ok (fst o, (sub_get s1, snd o)).
End Sub.

(** ** Trees of reference generators *)
(** [reference_names] as the code stores it: ConstReferenceGenerator stores a string. *)
Inductive names := NStr (s : string) | NList (l : list string).

(** Attributes of SwitchedReferenceGenerator; [sw_cur]: the position of the current
    generator in the list. *)
Record switched (N : numpy) := {
  sw_names : names; sw_p : list R; sw_range : Z * Z; sw_len : Z; sw_k : nat; sw_cur : nat; sw_ref : option (list R);
  sw_mask : list bool; sw_space : list R * list R; sw_seq : np_seq N; sw_gen : np_gen N }.
Arguments sw_names {N}. Arguments sw_p {N}. Arguments sw_range {N}. Arguments sw_len {N}. Arguments sw_k {N}. Arguments sw_cur {N}. Arguments sw_ref {N}.
Arguments sw_mask {N}. Arguments sw_space {N}. Arguments sw_seq {N}. Arguments sw_gen {N}.
(** Attributes of MultipleReferenceGenerator; [mu_n]: number of state names. *)
Record multiple := { mu_names : list string; mu_mask : list bool; mu_space : list R * list R; mu_n : nat }.

Inductive gen (N : numpy) :=
| GConst (state : string) (value : R) (mask : list bool)
| GZero (n : nat)
| GSub (s : sub N)
| GSwitched (w : switched N) (subs : list (gen N))
| GMultiple (m : multiple) (subs : list (gen N)).
Arguments GConst {N}. Arguments GZero {N}. Arguments GSub {N}. Arguments GSwitched {N}. Arguments GMultiple {N}.

Section Tree.
Context {N : numpy}.
Notation gen := (gen N).

(** [reference_names] *)
Definition g_names (g : gen) : names :=
  match g with
  | GConst s _ _ => NStr s                                                  (* const 24 *)
  | GZero _ => NList []
  | GSub s => NList [s_state s]
  | GSwitched w _ => sw_names w
  | GMultiple m _ => NList (mu_names m)
  end.
Definition names_eqb (a b : names) : bool :=
  match a, b with
  | NStr s, NStr t => String.eqb s t
  | NList l, NList m => if list_eq_dec String.string_dec l m then true else false
  | _, _ => false
  end.
(** [list += names]: a string is appended letter by letter. *)
Definition names_extend (l : list string) (n : names) : list string :=
  l ++ match n with NStr s => map (fun c => String.String c String.EmptyString) (String.list_ascii_of_string s) | NList m => m end.

(** [referenced_states] *)
Definition g_mask (g : gen) : list bool :=
  match g with
  | GConst _ _ m => m | GZero n => repeat false n | GSub s => s_mask s | GSwitched w _ => sw_mask w | GMultiple m _ => mu_mask m
  end.
(** [reference_space.low], [reference_space.high] *)
Definition g_space (g : gen) : list R * list R :=
  match g with
  | GConst _ v _ => ([v], [v])                                              (* const 23 *)
  | GZero _ => ([], [])                                                     (* zero 12 *)
  | GSub s => ([fst (s_space s)], [snd (s_space s)])
  | GSwitched w _ => sw_space w
  | GMultiple m _ => mu_space m
  end.

(** Constructors: const 13-24, switched 11-37, multiple 13-42 (with generator objects, not
    classes).  [range]: [super_episode_length] after 34-35. *)
Definition const_new (state : string) (v : R) : gen := GConst (lower state) v [].
Definition switched_new (subs : list gen) (p : option (list R)) (range : Z * Z) (seq : np_seq N) : res gen :=
  match subs with
  | [] => Err AssertionError                                                (* 26 *)
  | g0 :: _ =>
      do _ <- py_assert (forallb (fun g => names_eqb (g_names g) (g_names g0)) subs);   (* 28-30 *)
      let (g, seq') := np_spawn N seq in
      let uniform := repeat (1 / INR (length subs)) (length subs) in
      Ok (GSwitched {| sw_names := g_names g0; sw_p := match p with Some (x :: l) => x :: l | _ => uniform end;   (* 32 *)
                       sw_range := range; sw_len := 0; sw_k := 0; sw_cur := 0; sw_ref := None;
                       sw_mask := []; sw_space := ([-1], [1]); sw_seq := seq'; sw_gen := g |} subs)
  end.
Definition multiple_new (subs : list gen) : gen :=
  GMultiple {| mu_names := fold_left (fun l g => names_extend l (g_names g)) subs []; mu_mask := []; mu_space := ([-1], [1]); mu_n := 0 |} subs.

(** [for g in list: g.method()]: all elements, collecting the results. *)
Definition each {A B} (f : A -> res (A * B)) : list A -> res (list A * list B) :=
  fix go l := match l with
              | [] => Ok ([], [])
              | x :: l' => do y <- f x; do ys <- go l'; Ok (fst y :: fst ys, snd y :: snd ys)
              end.
(** The method of the element at position [i]. *)
Definition at_nth {A B} (f : A -> res (A * B)) : nat -> list A -> res (list A * B) :=
  fix go i l {struct l} := match l with
                | [] => Err IndexError
                | x :: l' =>
                    match i with
                    | O => do y <- f x; Ok (fst y :: l', snd y)
                    | S i' => do y <- go i' l'; Ok (x :: fst y, snd y)
                    end
                end.

(** [np.min(list of arrays, axis=0)]: ValueError for arrays of different lengths. *)
Fixpoint columnwise (f : R -> R -> R) (l : list (list R)) : res (list R) :=
  match l with
  | [] => Err ValueError
  | [x] => Ok x
  | x :: l' => do y <- columnwise f l'; if Nat.eqb (length x) (length y) then Ok (map2 f x y) else Err ValueError
  end.
(** The sum of the boolean arrays (as ints). *)
Definition count_mask (n : nat) (ms : list (list bool)) : list nat :=
  fold_right (fun (m : list bool) acc => map2 (fun (b : bool) c => if b then S c else c) m acc) (repeat O n) ms.
Definition bools_eqb (a b : list bool) : bool := if list_eq_dec Bool.bool_dec a b then true else false.

(** [set_modules]: const 26-29, zero 15-17, switched 39-63, multiple 44-65. *)
Fixpoint set_modules (ps : psys) (g : gen) : res gen :=
  match g with
  | GConst s v _ => do m <- state_mask s (p_names ps); Ok (GConst s v m)
  | GZero _ => Ok (GZero (length (p_names ps)))
  | GSub s => do s' <- sub_modules ps s; Ok (GSub s')
  | GSwitched w subs =>
      do r <- each (fun x => do y <- set_modules ps x; Ok (y, tt)) subs;
      let subs' := fst r in
      do low <- columnwise Rmin (map (fun x => fst (g_space x)) subs');     (* 47-50 *)
      do high <- columnwise Rmax (map (fun x => snd (g_space x)) subs');    (* 51-54 *)
      match subs' with
      | [] => Err IndexError
      | x0 :: _ =>
          do _ <- py_assert (forallb (fun x => bools_eqb (g_mask x) (g_mask x0)) subs');  (* 58-60 *)
          Ok (GSwitched {| sw_names := sw_names w; sw_p := sw_p w; sw_range := sw_range w; sw_len := sw_len w; sw_k := sw_k w; sw_cur := sw_cur w;
                           sw_ref := sw_ref w; sw_mask := g_mask x0; sw_space := (low, high); sw_seq := sw_seq w; sw_gen := sw_gen w |} subs')
      end
  | GMultiple m subs =>
      do r <- each (fun x => do y <- set_modules ps x; Ok (y, tt)) subs;
      let subs' := fst r in
      match subs' with
      | [] => Err TypeError                                                 (* 54-56: all(0 < 2) *)
      | _ :: _ =>
          let n := length (p_names ps) in
          let counts := count_mask n (map g_mask subs') in
          do _ <- py_assert (forallb (fun c => Nat.ltb c 2) counts);
          Ok (GMultiple {| mu_names := mu_names m; mu_mask := map (fun c => negb (Nat.eqb c 0)) counts;
                           mu_space := (flat_map (fun x => fst (g_space x)) subs', flat_map (fun x => snd (g_space x)) subs'); mu_n := n |} subs')
      end
  end.

(** [sum] of arrays *)
Fixpoint sum_arrays (acc : list R) (l : list (list R)) : res (list R) :=
  match l with [] => Ok acc | x :: l' => do a <- np_add acc x; sum_arrays a l' end.

Definition sw_with (w : switched N) (len : Z) (k cur : nat) (ref : option (list R)) (seq : np_seq N) (g : np_gen N) : switched N :=
  {| sw_names := sw_names w; sw_p := sw_p w; sw_range := sw_range w; sw_len := len; sw_k := k; sw_cur := cur; sw_ref := ref;
     sw_mask := sw_mask w; sw_space := sw_space w; sw_seq := seq; sw_gen := g |}.

(** [get_reference]: const 31-35, zero 19-20, subepisoded 88-91, switched 70-72, multiple
    77-79.  (Simplification: the sum of Multiple starts with an array of zeros instead of
    the number 0.) *)
Fixpoint get_reference (g : gen) : res (gen * list R) :=
  match g with
  | GConst _ v m => Ok (g, put_masked m v)
  | GZero n => Ok (g, repeat 0 n)
  | GSub s => Ok (g, sub_get s)
  | GSwitched w subs =>
      do r <- at_nth get_reference (sw_cur w) subs;
      Ok (GSwitched (sw_with w (sw_len w) (sw_k w) (sw_cur w) (Some (snd r)) (sw_seq w) (sw_gen w)) (fst r), snd r)
  | GMultiple m subs =>
      do r <- each get_reference subs;
      do s <- sum_arrays (repeat 0 (mu_n m)) (snd r);
      Ok (GMultiple m (fst r), s)
  end.

(** [SwitchedReferenceGenerator._reset_reference], switched 83-88. *)
Definition sw_draw (w : switched N) (n : nat) : res (switched N) :=
  do l <- np_integers (fst (sw_range w)) (snd (sw_range w)) (sw_gen w);
  do c <- np_choice N n (sw_p w) (snd l);
  Ok (sw_with w (fst l) 0 (fst c) (sw_ref w) (sw_seq w) (snd c)).

(** [reset]: the reference array and the reference observation.  core.py 485-505 (const,
    zero), subepisoded 66-86, switched 65-68, multiple 67-75. *)
Fixpoint reset (init : option (list R)) (g : gen) : res (gen * (list R * list R)) :=
  match g with
  | GConst _ v m => Ok (g, (put_masked m v, [v]))
  | GZero n => Ok (g, (repeat 0 n, []))
  | GSub s => do r <- sub_reset init s; Ok (GSub (fst r), snd r)
  | GSwitched w subs =>
      let (gn, seq) := np_spawn N (sw_seq w) in
      do w' <- sw_draw (sw_with w (sw_len w) (sw_k w) (sw_cur w) (sw_ref w) seq gn) (length subs);
      do r <- at_nth (reset init) (sw_cur w') subs;
      Ok (GSwitched w' (fst r), snd r)
  | GMultiple m subs =>
      do r <- each (reset init) subs;
      do s <- sum_arrays (repeat 0 (mu_n m)) (map fst (snd r));
      Ok (GMultiple m (fst r), (s, concat (map snd (snd r))))
  end.

(** [get_reference_observation]: const 37-39, zero 22-23, subepisoded 93-100, switched
    74-81, multiple 81-85. *)
Fixpoint get_obs (g : gen) : res (gen * list R) :=
  match g with
  | GConst _ v _ => Ok (g, [v])
  | GZero _ => Ok (g, [])
  | GSub s => do r <- sub_obs s; Ok (GSub (fst r), snd r)
  | GSwitched w subs =>
      if (sw_len w <=? Z.of_nat (sw_k w))%Z then
        do w' <- sw_draw w (length subs);
        do r <- at_nth (reset (sw_ref w)) (sw_cur w') subs;
        Ok (GSwitched (sw_with w' (sw_len w') (S (sw_k w')) (sw_cur w') (sw_ref w') (sw_seq w') (sw_gen w')) (fst r), snd (snd r))
      else
        do r <- at_nth get_obs (sw_cur w) subs;
        Ok (GSwitched (sw_with w (sw_len w) (S (sw_k w)) (sw_cur w) (sw_ref w) (sw_seq w) (sw_gen w)) (fst r), snd r)
  | GMultiple m subs =>
      do r <- each get_obs subs;
      Ok (GMultiple m (fst r), concat (snd r))
  end.

(** ** Histories *)
(** What the environment does with its generator. *)
Inductive op := Reset (init : option (list R)) | GetRef | GetObs.
Definition step (o : op) (g : gen) : res (gen * list R) :=
  match o with
  | Reset i => do r <- reset i g; Ok (fst r, snd (snd r))
  | GetRef => get_reference g
  | GetObs => get_obs g
  end.
Fixpoint run (ops : list op) (g : gen) : res gen :=
  match ops with
  | [] => Ok g
  | o :: ops' => do r <- step o g; run ops' (fst r)
  end.
End Tree.
