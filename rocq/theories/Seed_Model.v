(** Model of random streams: src/gym_electric_motor/random_component.py, the
    [seed] methods of the composite components and [_seed] of the environment.

    A numpy SeedSequence is identified by its entropy and spawn key; [spawn]
    appends the running child number to the key.  A Generator made from a
    SeedSequence is identified by the same pair: two generators produce the same
    numbers iff they were made from the same pair.  (Numpy's hash collisions are
    not modelled, nor are the draws themselves.)  One object occurring at two
    places of a component tree is not modelled. *)
From Verif Require Import PyBase.

Section Seed.
(** Entropy values: user seeds or operating system entropy. *)
Context {E : Type}.

(** Identity of a SeedSequence / of a random stream. *)
Definition stream := (E * list nat)%type.

(** numpy.random.SeedSequence: identity and number of children spawned. *)
Record seedseq := { ss_id : stream; ss_spawned : nat }.
Definition ss_new (e : E) : seedseq := {| ss_id := (e, []); ss_spawned := 0 |}.
Definition child_id (s : seedseq) (i : nat) : stream :=
  (fst (ss_id s), snd (ss_id s) ++ [ss_spawned s + i])%nat.
(** [s.spawn(n)]: the n children and the parent afterwards. *)
Definition spawn (s : seedseq) (n : nat) : list seedseq * seedseq :=
  (map (fun i => {| ss_id := child_id s i; ss_spawned := 0 |}) (seq 0 n),
   {| ss_id := ss_id s; ss_spawned := ss_spawned s + n |}).
(** [s.spawn(1)[0]] *)
Definition spawn1 (s : seedseq) : seedseq * seedseq :=
  ({| ss_id := child_id s 0; ss_spawned := 0 |},
   {| ss_id := ss_id s; ss_spawned := ss_spawned s + 1 |}).

(** The attributes of a RandomComponent, random_component.py 60-62. *)
Record rstate := { r_seq : seedseq; r_gen : stream }.

(** [RandomComponent.seed(seed)] with a SeedSequence, 64-83. *)
Definition rc_seed (s : seedseq) : rstate :=
  let (c, s') := spawn1 s in {| r_seq := s'; r_gen := ss_id c |}.
(** Constructor: a fresh SeedSequence, 60-62. *)
Definition rc_init (fresh : E) : rstate := rc_seed (ss_new fresh).
(** [next_generator], 85-87. *)
Definition rc_next (r : rstate) : rstate :=
  let (c, s') := spawn1 (r_seq r) in {| r_seq := s'; r_gen := ss_id c |}.

(** Component trees. *)
Inductive comp :=
| Plain                                   (* no RandomComponent: converters, supplies, solvers, ... *)
| Leaf (r : rstate)                       (* motors, loads, sub-episoded reference generators, ... *)
| Scml (r : rstate) (subs : list comp)    (* SCMLSystem: supply, converter, motor, load, solver *)
| Multi (r : rstate) (subs : list comp)   (* Multiple- / SwitchedReferenceGenerator *)
| Wrapped (r : rstate) (inner : comp).    (* PhysicalSystemWrapper *)

Definition is_random (c : comp) : bool := match c with Plain => false | _ => true end.

(** [seed] of each kind of component.
    - RandomComponent: random_component.py 64-83
    - SCMLSystem: physical_systems.py 164-169 (a sub seed for every component,
      also for the non-random ones)
    - Multiple / Switched: multiple_reference_generator.py 87-92,
      switched_reference_generator.py 90-95 (a sub seed for the random ones only)
    - PhysicalSystemWrapper: physical_system_wrapper.py 108-111 *)
Fixpoint seed_comp (c : comp) (s : seedseq) {struct c} : comp :=
  match c with
  | Plain => Plain
  | Leaf _ => Leaf (rc_seed s)
  | Scml _ subs =>
      let r := rc_seed s in
      let fix go (subs : list comp) (i : nat) :=
        match subs with
        | [] => []
        | c' :: subs' =>
            seed_comp c' {| ss_id := child_id (r_seq r) i; ss_spawned := 0 |} :: go subs' (S i)
        end in
      Scml {| r_seq := snd (spawn (r_seq r) (length subs)); r_gen := r_gen r |} (go subs O)
  | Multi _ subs =>
      let r := rc_seed s in
      let fix go (subs : list comp) (q : seedseq) :=
        match subs with
        | [] => ([], q)
        | c' :: subs' =>
            if is_random c' then
              let (k, q') := spawn1 q in
              let c'' := seed_comp c' k in
              let (rest, q'') := go subs' q' in (c'' :: rest, q'')
            else let (rest, q'') := go subs' q in (c' :: rest, q'')
        end in
      let (subs', q) := go subs (r_seq r) in
      Multi {| r_seq := q; r_gen := r_gen r |} subs'
  | Wrapped r inner => Wrapped r (seed_comp inner s)
  end.

(** [_seed], core.py 373-385: the components are physical system, reference
    generator, reward function, constraint monitor and callbacks. *)
Fixpoint seed_list (cs : list comp) (s : seedseq) (i : nat) : list comp :=
  match cs with
  | [] => []
  | c :: cs' => seed_comp c {| ss_id := child_id s i; ss_spawned := 0 |} :: seed_list cs' s (S i)
  end.
Definition env_seed (cs : list comp) (e : E) : list comp := seed_list cs (ss_new e) 0.

(** [reset(seed)] seeds first (core.py 309): with a user seed [Some s], or from
    fresh operating system entropy for [None]. *)
Definition env_reset_streams (cs : list comp) (seed : option E) (fresh : E) : list comp :=
  env_seed cs (match seed with Some s => s | None => fresh end).

(** [next_generator] on the component at a path (child numbers from the root;
    the inner system of a wrapper is child 0). *)
Fixpoint update_nth {A} (i : nat) (f : A -> A) (l : list A) : list A :=
  match i, l with
  | _, [] => []
  | O, x :: l' => f x :: l'
  | S i', x :: l' => x :: update_nth i' f l'
  end.
Fixpoint next_at (p : list nat) (c : comp) : comp :=
  match p with
  | [] => match c with
          | Plain => Plain
          | Leaf r => Leaf (rc_next r)
          | Scml r subs => Scml (rc_next r) subs
          | Multi r subs => Multi (rc_next r) subs
          | Wrapped r inner => Wrapped (rc_next r) inner
          end
  | i :: p' => match c with
               | Scml r subs => Scml r (update_nth i (next_at p') subs)
               | Multi r subs => Multi r (update_nth i (next_at p') subs)
               | Wrapped r inner => if Nat.eqb i 0 then Wrapped r (next_at p' inner) else c
               | _ => c
               end
  end.
Definition env_next (p : list nat) (cs : list comp) : list comp :=
  match p with [] => cs | i :: p' => update_nth i (next_at p') cs end.

(** The random state of the component at a path. *)
Definition root_state (c : comp) : option rstate :=
  match c with
  | Plain => None
  | Leaf r => Some r | Scml r _ => Some r | Multi r _ => Some r | Wrapped r _ => Some r
  end.
Fixpoint state_at (p : list nat) (c : comp) : option rstate :=
  match p with
  | [] => root_state c
  | i :: p' => match c with
               | Scml _ subs | Multi _ subs =>
                   match nth_error subs i with Some c' => state_at p' c' | None => None end
               | Wrapped _ inner => if Nat.eqb i 0 then state_at p' inner else None
               | _ => None
               end
  end.
Definition env_state_at (p : list nat) (cs : list comp) : option rstate :=
  match p with
  | [] => None
  | i :: p' => match nth_error cs i with Some c => state_at p' c | None => None end
  end.

End Seed.
Arguments stream : clear implicits.
Arguments seedseq : clear implicits.
Arguments rstate : clear implicits.
Arguments comp : clear implicits.
