(** Model of src/gym_electric_motor/callbacks.py: RampingLimitMargin, together with the way
    the environment drives its reference generator and its callbacks. *)
From Verif Require Import PyBase RefGen_Model.

(** Attributes; [ra_by_step]: update_time is "step" (then [ra_count] is [_step], else
    [_episode]). *)
Record ramp := { ra_margin : R * R; ra_max : R * R; ra_step : R; ra_by_step : bool; ra_count : Z; ra_freq : Z }.

(** [__init__], 27-74; [time]: the string [update_time]. *)
Definition ramp_new (initial maximum : R * R) (step : R) (time : string) (freq : Z) : res ramp :=
  do _ <- py_assert (String.eqb time "step" || String.eqb time "episode");          (* 51-54 *)
  do _ <- py_assert (rlt (fst initial) (snd initial));                              (* 55-57 *)
  do _ <- py_assert (rlt (fst maximum) (snd maximum));                              (* 58-60 *)
  do _ <- py_assert (rle (-1) (fst initial));
  do _ <- py_assert (rle (-1) (fst maximum));
  do _ <- py_assert (rle (snd initial) 1);
  do _ <- py_assert (rle (snd maximum) 1);
  Ok {| ra_margin := initial; ra_max := maximum; ra_step := step; ra_by_step := String.eqb time "step"; ra_count := 0; ra_freq := freq |}.

Section Ramp.
Context {N : numpy}.
(** [generator._limit_margin = margin] *)
Definition set_margin (m : R * R) (s : sub N) : sub N :=
  {| s_state := s_state s; s_lens := s_lens s; s_margin := LmPair (fst m) (snd m); s_kind := s_kind s; s_value := s_value s; s_len := s_len s; s_k := s_k s; s_ref := s_ref s;
     s_mask := s_mask s; s_space := s_space s; s_tau := s_tau s; s_seq := s_seq s; s_gen := s_gen s |}.
Definition set_margin_gen (m : R * R) (g : gen N) : gen N := match g with GSub s => GSub (set_margin m s) | _ => g end.
(** The assignment in 86-91 and 121-125. *)
Definition assign_margin (m : R * R) (g : gen N) : gen N :=
  match g with
  | GSwitched w subs => GSwitched w (map (set_margin_gen m) subs)
  | _ => set_margin_gen m g
  end.
(** Classes accepted by [set_env], 78-83. *)
Definition is_sub (g : gen N) : bool := match g with GSub _ => true | _ => false end.
(** [set_env], 76-91 *)
Definition ramp_set_env (r : ramp) (g : gen N) : res (gen N) :=
  do _ <- match g with GSwitched _ subs => py_assert (forallb is_sub subs) | _ => py_assert (is_sub g) end;
  Ok (assign_margin (ra_margin r) g).
(** [_update_limit_margin], 109-125 *)
Definition widen (r : ramp) : R * R :=
  let lo := fst (ra_margin r) - ra_step r in
  let hi := snd (ra_margin r) + ra_step r in
  (if rlt (fst (ra_max r)) lo then lo else fst (ra_max r), if rlt hi (snd (ra_max r)) then hi else snd (ra_max r)).
Definition with_margin (m : R * R) (r : ramp) : ramp :=
  {| ra_margin := m; ra_max := ra_max r; ra_step := ra_step r; ra_by_step := ra_by_step r; ra_count := ra_count r; ra_freq := ra_freq r |}.
Definition with_count (c : Z) (r : ramp) : ramp :=
  {| ra_margin := ra_margin r; ra_max := ra_max r; ra_step := ra_step r; ra_by_step := ra_by_step r; ra_count := c; ra_freq := ra_freq r |}.
Definition update_margin (r : ramp) (g : gen N) : ramp * gen N :=
  if req (fst (ra_margin r)) (fst (ra_max r)) && req (snd (ra_margin r)) (snd (ra_max r)) then (r, g)
  else (with_margin (widen r) r, assign_margin (widen r) g).
(** The body common to [on_step_end], 93-99, and [on_reset_end], 101-107. *)
Definition count_event (r : ramp) (g : gen N) : res (ramp * gen N) :=
  let c := (ra_count r + 1)%Z in
  if (ra_freq r =? 0)%Z then Err ZeroDivisionError
  else if (c mod ra_freq r =? 0)%Z then Ok (update_margin (with_count 0 r) g)
  else Ok (with_count c r, g).
Definition on_step_end (r : ramp) (g : gen N) : res (ramp * gen N) := if ra_by_step r then count_event r g else Ok (r, g).
Definition on_reset_end (r : ramp) (g : gen N) : res (ramp * gen N) := if ra_by_step r then Ok (r, g) else count_event r g.

(** The environment, core.py 300-330 and 332-370, as far as generator and this callback are
    concerned: the result is the reference part of the observation.  [init] is the
    [initial_reference] of the generator (None from the environment). *)
Inductive env_op := EReset | EStep.
Definition env_op_run (o : env_op) (x : ramp * gen N) : res ((ramp * gen N) * list R) :=
  match o with
  | EReset => do y <- reset None (snd x); do z <- on_reset_end (fst x) (fst y); Ok (z, snd (snd y))
  | EStep => do y <- get_reference (snd x); do y2 <- get_obs (fst y); do z <- on_step_end (fst x) (fst y2); Ok (z, snd y2)
  end.
(** All observations of a history. *)
Fixpoint env_run (ops : list env_op) (x : ramp * gen N) : res ((ramp * gen N) * list (list R)) :=
  match ops with
  | [] => Ok (x, [])
  | o :: ops' => do y <- env_op_run o x; do z <- env_run ops' (fst y); Ok (fst z, snd y :: snd z)
  end.
End Ramp.
