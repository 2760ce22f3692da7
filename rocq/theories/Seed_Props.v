(** Properties C07, C08, C09: what [reset(seed=...)] fixes. *)
From Verif Require Import PyBase Seed_Model Seed_Spec Seed_Proofs.
From Coq Require Import Lia.

(** A drive with a synchronous system (supply, converter, motor, load, solver), a
    switched reference generator over a Multiple generator, one random callback,
    and all components with arbitrary histories. *)
Definition toy_tree {E} (r : rstate E) : list (comp E) :=
  [Scml r [Plain; Plain; Leaf r; Leaf r; Plain];
   Multi r [Leaf r; Plain; Multi r [Leaf r; Leaf r]]; Plain; Plain; Leaf r].

(** C07.  After [reset(seed=s)] and any further episode starts, the random state
    of every seeded component is the same for two environments with the same
    component tree, whatever happened in them before. *)
Theorem reset_seed_reproducible {E : Type} :
  forall (cs1 cs2 : list (comp E)) (s f1 f2 : E) (ps : list (list nat)) (p : list nat),
  map shape_of cs1 = map shape_of cs2 ->
  env_seeded_pos p (map shape_of cs1) ->
  exists r, env_state_at p (run_next ps (env_reset_streams cs1 (Some s) f1)) = Some r /\
            env_state_at p (run_next ps (env_reset_streams cs2 (Some s) f2)) = Some r /\
            fst (r_gen r) = s.
Proof.
  intros cs1 cs2 s f1 f2 ps p Hsh Hp. unfold env_reset_streams.
  assert (Hok : oke s (run_next ps (env_seed cs1 s))) by apply run_next_ok, env_seed_ok.
  assert (Hp1 : env_seeded_pos p (map shape_of (run_next ps (env_seed cs1 s))))
    by (now rewrite run_next_shape, env_seed_shape).
  assert (Hsim : Forall2 sim (run_next ps (env_seed cs1 s)) (run_next ps (env_seed cs2 s))).
  { apply run_next_sim. unfold env_seed. rewrite !seed_list_all.
    assert (Hg : forall q i, Forall2 sim (seed_all cs1 q i) (seed_all cs2 q i)); [|apply Hg].
    clear -Hsh. revert cs2 Hsh. induction cs1 as [|c cs1 IH]; intros [|c' cs2] Hsh q i; try discriminate.
    - constructor.
    - simpl in *. injection Hsh as H1 H2. constructor; [now apply seed_sim | now apply IH]. }
  destruct (oke_state _ _ _ Hok Hp1) as (i & p' & c & r & m & -> & En & Hp' & Es & Hr).
  exists r. split; [exact Es|]. split.
  - rewrite <- Es. simpl. pose proof (Forall2_nth _ _ i Hsim) as Hn. rewrite En in *.
    destruct (nth_error (run_next ps (env_seed cs2 s)) i) as [c2|]; [|contradiction].
    symmetry. now apply sim_state.
  - destruct Hr as (_ & _ & a & -> & _). reflexivity.
Qed.
Print Assumptions reset_seed_reproducible.

(** Two different components never draw from one stream: not at the same time and
    not at different times after the reset. *)
Theorem streams_never_shared {E : Type} :
  forall (cs : list (comp E)) (s f : E) (ps ps' : list (list nat)) (p q : list nat),
  env_seeded_pos p (map shape_of cs) -> env_seeded_pos q (map shape_of cs) -> p <> q ->
  stream_at p (run_next ps (env_reset_streams cs (Some s) f)) <>
  stream_at q (run_next ps' (env_reset_streams cs (Some s) f)).
Proof.
  intros cs s f ps ps' p q Hp Hq Hne. unfold env_reset_streams, stream_at.
  assert (H1 : oke s (run_next ps (env_seed cs s))) by apply run_next_ok, env_seed_ok.
  assert (H2 : oke s (run_next ps' (env_seed cs s))) by apply run_next_ok, env_seed_ok.
  assert (Hp1 : env_seeded_pos p (map shape_of (run_next ps (env_seed cs s))))
    by (now rewrite run_next_shape, env_seed_shape).
  assert (Hq1 : env_seeded_pos q (map shape_of (run_next ps (env_seed cs s))))
    by (now rewrite run_next_shape, env_seed_shape).
  assert (Hq2 : env_seeded_pos q (map shape_of (run_next ps' (env_seed cs s))))
    by (now rewrite run_next_shape, env_seed_shape).
  destruct (oke_state _ _ _ H1 Hp1) as (_ & _ & _ & rp & _ & _ & _ & _ & Ep & _).
  destruct (oke_state _ _ _ H2 Hq2) as (_ & _ & _ & rq & _ & _ & _ & _ & Eq & _).
  rewrite Ep, Eq. cbn [option_map]. intros He. injection He as He.
  assert (Hsh : map shape_of (run_next ps (env_seed cs s)) = map shape_of (run_next ps' (env_seed cs s)))
    by (now rewrite !run_next_shape).
  destruct (streams_distinct s _ _ p q rp rq H1 H2 Hsh Hp1 Hq1 Hne Ep Eq) as [Hd _].
  contradiction.
Qed.
Print Assumptions streams_never_shared.

(** A component that starts a new episode never sees an earlier stream again. *)
Theorem episodes_never_repeat_streams {E : Type} :
  forall (cs : list (comp E)) (s f : E) (ps ps' : list (list nat)) (p : list nat),
  env_seeded_pos p (map shape_of cs) ->
  let now := run_next ps (env_reset_streams cs (Some s) f) in
  stream_at p (run_next (p :: ps') now) <> stream_at p now.
Proof.
  intros cs s f ps ps' p Hp now.
  assert (H1 : oke s now) by apply run_next_ok, env_seed_ok.
  assert (Hp1 : env_seeded_pos p (map shape_of now))
    by (unfold now, env_reset_streams; now rewrite run_next_shape, env_seed_shape).
  destruct (oke_state _ _ _ H1 Hp1) as (i0 & p0 & c0 & rp & m & _ & _ & _ & Ep & Hr).
  unfold stream_at at 2. rewrite Ep. cbn [option_map].
  apply stream_never_repeats; [exact Ep | eapply okr_wf; exact Hr].
Qed.
Print Assumptions episodes_never_repeat_streams.

(** Different seeds give different streams everywhere. *)
Theorem seeds_separate_streams {E : Type} :
  forall (cs : list (comp E)) (s s' f f' : E) (ps ps' : list (list nat)) (p q : list nat),
  env_seeded_pos p (map shape_of cs) -> env_seeded_pos q (map shape_of cs) -> s <> s' ->
  stream_at p (run_next ps (env_reset_streams cs (Some s) f)) <>
  stream_at q (run_next ps' (env_reset_streams cs (Some s') f')).
Proof.
  intros cs s s' f f' ps ps' p q Hp Hq Hne He.
  destruct (reset_seed_reproducible cs cs s f f ps p eq_refl Hp) as (r & H1 & _ & H2).
  destruct (reset_seed_reproducible cs cs s' f' f' ps' q eq_refl Hq) as (r' & H1' & _ & H2').
  unfold stream_at in He. rewrite H1, H1' in He. cbn in He. injection He as He.
  apply Hne. now rewrite <- H2, <- H2', He.
Qed.
Print Assumptions seeds_separate_streams.

(** The toy tree: motor [0;2], load [0;3], nested generators, callback [4] are all
    seeded positions and lie on pairwise different paths. *)
Example toy_positions :
  let sh := map shape_of (toy_tree (rc_init true)) in
  Forall (fun p => env_seeded_pos p sh)
    [[0]; [0;2]; [0;3]; [1]; [1;0]; [1;2]; [1;2;0]; [1;2;1]; [4]]%nat.
Proof. repeat constructor. Qed.
Example toy_streams :
  map (fun p => stream_at p (run_next [[0]; [1]]%nat (env_reset_streams (toy_tree (rc_init true)) (Some false) true)))
    [[0]; [0;2]; [0;3]; [1]; [1;0]; [1;2]; [1;2;0]; [1;2;1]; [4]]%nat =
  [Some (false, [0;6]); Some (false, [0;3;0]); Some (false, [0;4;0]);
   Some (false, [1;3]); Some (false, [1;1;0]); Some (false, [1;2;0]);
   Some (false, [1;2;1;0]); Some (false, [1;2;2;0]); Some (false, [4;0])]%nat.
Proof. reflexivity. Qed.

(** C08 (refuted).  The episode after [reset(seed=s); reset()] is a function of
    fresh entropy: with two different fresh values every seeded component draws
    from different streams, in spite of the common seed [s]. *)
Theorem reset_without_seed_refuted {E : Type} :
  forall (cs : list (comp E)) (s f f1 f2 : E) (ps : list (list nat)) (p : list nat),
  env_seeded_pos p (map shape_of cs) -> f1 <> f2 ->
  let first_episode := run_next ps (env_reset_streams cs (Some s) f) in
  stream_at p (env_reset_streams first_episode None f1) <>
  stream_at p (env_reset_streams first_episode None f2).
Proof.
  intros cs s f f1 f2 ps p Hp Hne fe.
  assert (Hp' : env_seeded_pos p (map shape_of fe))
    by (unfold fe, env_reset_streams; now rewrite run_next_shape, env_seed_shape).
  exact (seeds_separate_streams fe f1 f2 f f [] [] p p Hp' Hp' Hne).
Qed.
Print Assumptions reset_without_seed_refuted.

Example reset_without_seed_toy :
  stream_at [0]%nat (env_reset_streams (env_reset_streams (toy_tree (rc_init 7)) (Some 1) 2) None 3)%nat
    = Some (3, [0;0])%nat.
Proof. reflexivity. Qed.

(** C09 (refuted).  The noise stream of a wrapper of the physical system is the
    same before and after seeding, for every seed ... *)
Theorem wrapper_ignores_seed_refuted {E : Type} :
  forall (r : rstate E) (inner : comp E) (rest : list (comp E)) (seed : option E) (f : E),
  env_state_at [0%nat] (env_reset_streams (Wrapped r inner :: rest) seed f) = Some r.
Proof. intros. reflexivity. Qed.
Print Assumptions wrapper_ignores_seed_refuted.

(** ... so two freshly built environments with the same seed have different noise
    if their construction-time entropies differ ... *)
Theorem wrapper_noise_entropy_refuted {E : Type} :
  forall (f1 f2 s g1 g2 : E) (inner : comp E) (rest : list (comp E)), f1 <> f2 ->
  stream_at [0%nat] (run_next [[0%nat]] (env_reset_streams (Wrapped (rc_init f1) inner :: rest) (Some s) g1)) <>
  stream_at [0%nat] (run_next [[0%nat]] (env_reset_streams (Wrapped (rc_init f2) inner :: rest) (Some s) g2)).
Proof. intros f1 f2 s g1 g2 inner rest Hne He. cbn in He. injection He as He. contradiction. Qed.
Print Assumptions wrapper_noise_entropy_refuted.

(** ... and resetting one environment twice with the same seed gives different noise. *)
Theorem wrapper_noise_not_repeated_refuted {E : Type} :
  forall (r : rstate E) (inner : comp E) (rest : list (comp E)) (s g1 g2 : E),
  let reset env g := run_next [[0%nat]] (env_reset_streams env (Some s) g) in
  let e1 := reset (Wrapped r inner :: rest) g1 in
  let e2 := reset e1 g2 in
  stream_at [0%nat] e1 <> stream_at [0%nat] e2.
Proof.
  intros r inner rest s g1 g2 reset e1 e2 He. unfold e2, e1, reset in He.
  cbn in He. injection He as He. apply app_inj_tail in He. lia.
Qed.
Print Assumptions wrapper_noise_not_repeated_refuted.

(** Components inside a wrapper stay covered by the seed (position 0 :: 0 :: _). *)
Example wrapped_motor_is_seeded :
  env_seeded_pos [0;0;2]%nat
    (map shape_of [Wrapped (rc_init 0%nat) (Scml (rc_init 0%nat) [Plain; Plain; Leaf (rc_init 0%nat)])]).
Proof. cbn. auto. Qed.
