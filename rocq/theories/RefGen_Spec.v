(** Vocabulary for the statements about reference generators. *)
From Verif Require Import PyBase PyDict RefGen_Model.

(** What numpy documents about its draws. *)
Record numpy_ok (N : numpy) : Prop := {
  ok_uniform : forall g, 0 <= fst (np_uniform N g) < 1;
  ok_normal : forall s n g, length (fst (np_normal N s n g)) = n;
  ok_laplace : forall s n g, length (fst (np_laplace N s n g)) = n;
  ok_triangular : forall g, 0 <= fst (np_triangular N g) <= 1;
  ok_below : forall n g, (0 < n)%Z -> (0 <= fst (np_below N n g) < n)%Z;
  ok_choice : forall n p g i g', np_choice N n p g = Ok (i, g') -> (i < n)%nat }.

(** Parameters as the constructors leave them. *)
Definition kind_new (k : kind) : Prop :=
  match k with Sinus w | Triangle w | Saw w | Step w => w_set w = None | _ => True end.
(** Generators that the constructors can build. *)
Inductive built {N} : gen N -> Prop :=
| built_const s v : built (const_new s v)
| built_zero n : built (GZero n)
| built_sub state lens m k seq s : kind_new k -> sub_new state lens m k seq = Ok s -> built (GSub s)
| built_switched subs p range seq g : Forall built subs -> switched_new subs p range seq = Ok g -> built g
| built_multiple subs : Forall built subs -> built (multiple_new subs).

(** The names of the referenced states in the order of the observation (of the current
    generator where generators are switched). *)
Fixpoint ref_states {N} (g : gen N) : list string :=
  match g with
  | GConst s _ _ => [lower s]
  | GZero _ => []
  | GSub s => [lower (s_state s)]
  | GSwitched w subs => nth (sw_cur w) (map ref_states subs) []
  | GMultiple _ subs => flat_map ref_states subs
  end.

(** [o] lies in the box [sp]. *)
Definition inside (sp : list R * list R) (o : list R) : Prop :=
  length (fst sp) = length o /\ length (snd sp) = length o /\
  forall i lo hi v, nth_error (fst sp) i = Some lo -> nth_error (snd sp) i = Some hi -> nth_error o i = Some v -> lo <= v <= hi.

(** Every sub-episoded generator in the tree has a non-empty interval. *)
Inductive margins_ordered {N} : gen N -> Prop :=
| mo_const s v m : margins_ordered (GConst s v m)
| mo_zero n : margins_ordered (GZero n)
| mo_sub s : fst (s_space s) <= snd (s_space s) -> margins_ordered (GSub s)
| mo_switched w subs : Forall margins_ordered subs -> margins_ordered (GSwitched w subs)
| mo_multiple m subs : Forall margins_ordered subs -> margins_ordered (GMultiple m subs).

(** Margins given as nothing or as one non-negative factor. *)
Definition plain_margin (m : margin) : Prop := match m with LmNone => True | LmNum x => 0 <= x | _ => False end.
Inductive plain_margins {N} : gen N -> Prop :=
| pm_const s v m : plain_margins (GConst s v m)
| pm_zero n : plain_margins (GZero n)
| pm_sub s : plain_margin (s_margin s) -> plain_margins (GSub s)
| pm_switched w subs : Forall plain_margins subs -> plain_margins (GSwitched w subs)
| pm_multiple m subs : Forall plain_margins subs -> plain_margins (GMultiple m subs).
(** Physical systems with sensible announcements. *)
Definition psys_ok (ps : psys) : Prop :=
  NoDup (p_names ps) /\
  (forall i x, nth_error (p_nominal ps) i = Some x -> 0 <= x) /\ (forall i x, nth_error (p_limits ps) i = Some x -> 0 < x) /\
  (forall i l h, nth_error (p_low ps) i = Some l -> nth_error (p_high ps) i = Some h -> l <= h).

(** Operations that return an observation. *)
Definition shows (o : op) : Prop := match o with GetRef => False | _ => True end.

(** [r] is the reference array for the observation [o] of the states [st]: the value at each
    referenced state is the observed one, all other entries are 0. *)
Definition reference_of (names st : list string) (o r : list R) : Prop :=
  length r = length names /\ length o = length st /\
  forall j nm, nth_error names j = Some nm ->
    (forall i v, nth_error st i = Some nm -> nth_error o i = Some v -> nth_error r j = Some v) /\
    (~ In nm st -> nth_error r j = Some 0).

(** ** Sub-episodes *)
(** [play s n s' out]: [n] observations. *)
Inductive play {N} : sub N -> nat -> sub N -> list R -> Prop :=
| play_0 s : play s 0 s []
| play_S s s1 n s2 v out : sub_obs s = Ok (s1, [v]) -> play s1 n s2 out -> play s (S n) s2 (v :: out).

(** A chain of sub-episodes: each is drawn when the previous one is used up, with the value
    reached so far and the random generator as it was left. *)
Inductive episodes {N} (s : sub N) : R -> np_gen N -> list (list R) -> np_gen N -> Prop :=
| ep_nil v g : episodes s v g [] g
| ep_cons v g l g1 lo hi e g2 es g3 :
    current_value (s_lens s) g = Ok (l, g1) -> s_margin s = LmPair lo hi ->
    new_reference (s_kind s) lo hi v (s_tau s) (py_int l) g1 = Ok (e, g2) -> e <> [] ->
    episodes s (last e 0) g2 es g3 -> episodes s v g (e :: es) g3.

(** Acceptable lengths: at least one step. *)
Definition lens_ok (r : vrange) : Prop :=
  match r with VNum x => 1 <= x | VPair a b => 1 <= a <= b | VNp _ => False end.
(** The possible lengths of a range. *)
Definition in_lens (r : vrange) (n : Z) : Prop :=
  match r with VNum x => n = py_int x | VPair a b => (py_int a <= n <= py_int b)%Z /\ (a < b -> IZR n < b) | VNp _ => False end.
(** Parameters with which a generator can produce references. *)
Definition freq_ok (r : vrange) (positive : bool) : Prop :=
  match r with
  | VNum x => if positive then 0 < x else True
  | VPair a b => if positive then 0 < a /\ 0 < b else True
  | VNp _ => False
  end.
Definition pair_range (r : erange) : Prop := match r with EPair _ _ => True | ENum _ => False end.
Definition wave_ok (w : wave) (positive : bool) : Prop := pair_range (w_amp w) /\ pair_range (w_off w) /\ freq_ok (w_freq w) positive.
Definition kind_ok (k : kind) : Prop :=
  match k with
  | Wiener sg _ | Laplace sg => match sg with VPair a b => 0 < a /\ 0 < b | _ => False end
  | Sinus w | Triangle w | Saw w => wave_ok w false
  | Step w => wave_ok w true
  end.
(** Trees that can produce references for ever. *)
Inductive usable {N} : gen N -> Prop :=
| us_const s v m : usable (GConst s v m)
| us_zero n : usable (GZero n)
| us_sub s : lens_ok (s_lens s) -> kind_ok (s_kind s) -> usable (GSub s)
| us_switched w subs : (fst (sw_range w) < snd (sw_range w))%Z ->
    (forall g, exists i g', np_choice N (length subs) (sw_p w) g = Ok (i, g')) -> Forall usable subs -> usable (GSwitched w subs)
| us_multiple m subs : Forall usable subs -> usable (GMultiple m subs).

(** Trees without constant references. *)
Inductive no_const {N} : gen N -> Prop :=
| nc_zero n : no_const (GZero n)
| nc_sub s : no_const (GSub s)
| nc_switched w subs : Forall no_const subs -> no_const (GSwitched w subs)
| nc_multiple m subs : Forall no_const subs -> no_const (GMultiple m subs).

(** ** Super-episodes *)
(** [replay w n]: [n] observations of a switched generator, each preceded by a
    [get_reference] as in the environment; for every observation whether a sub-generator
    was (re)started. *)
Definition sw_of {N} (g : gen N) : option (switched N) := match g with GSwitched w _ => Some w | _ => None end.
Inductive replay {N} : gen N -> nat -> gen N -> list bool -> Prop :=
| replay_0 g : replay g 0 g []
| replay_S g g1 r g2 o w n g3 out :
    get_reference g = Ok (g1, r) -> sw_of g1 = Some w -> get_obs g1 = Ok (g2, o) -> replay g2 n g3 out ->
    replay g (S n) g3 ((sw_len w <=? Z.of_nat (sw_k w))%Z :: out).
(** The schedule for drawn lengths: a start, then the rest of the super-episode (a drawn
    length below 1 acts like 1). *)
Fixpoint super_schedule (ls : list Z) : list bool :=
  match ls with [] => [] | l :: ls' => true :: repeat false (Z.to_nat (l - 1)) ++ super_schedule ls' end.
