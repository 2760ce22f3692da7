(** Notions for the properties of the wrappers, independent of their code. *)
From Verif Require Import PyBase PyDict Conv_Model Transform_Model PhysSys_Model Wrap_Model.
Local Open Scope R_scope.

(** What a caller sees of an episode: the observations up to the first exception, and that
    exception.  The final state of the machine comes along. *)
Definition outcome := (list (list R) * option exn)%type.
Definition see (o : list R) (x : outcome) : outcome := (o :: fst x, snd x).
Fixpoint sims {S} (m : machine S) (acts : list action) (s : S) : S * outcome :=
  match acts with
  | [] => (s, ([], None))
  | a :: acts' =>
      match m_sim m a s with
      | (s1, Err e) => (s1, ([], Some e))
      | (s1, Ok o) => let (s2, out) := sims m acts' s1 in (s2, see o out)
      end
  end.
Definition episode {S} (m : machine S) (acts : list action) (s : S) : S * outcome :=
  match m_reset m s with
  | (s1, Err e) => (s1, ([], Some e))
  | (s1, Ok o) => let (s2, out) := sims m acts s1 in (s2, see o out)
  end.
(** Several episodes. *)
Fixpoint episodes {S} (m : machine S) (l : list (list action)) (s : S) : S * list outcome :=
  match l with
  | [] => (s, [])
  | acts :: l' => let (s1, o) := episode m acts s in let (s2, os) := episodes m l' s1 in (s2, o :: os)
  end.

(** The actions [acts] preceded by [first], as many as [acts]. *)
Definition after (first acts : list action) : list action := firstn (length acts) (first ++ acts).

(** The value shown under a name. *)
Definition shown (names : list string) (obs : list R) (n : string) : option R :=
  match str_index n names with Ok i => nth_error obs i | Err _ => None end.

(** Announced data of [n] states fit together. *)
Definition aligned (n : nat) (i : info) : Prop :=
  length (i_names i) = n /\ length (i_limits i) = n /\ length (i_nominal i) = n /\ length (i_low i) = n /\ length (i_high i) = n /\
  NoDup (i_names i) /\ (forall k j, dict_get k (i_pos i) = Some j <-> nth_error (i_names i) j = Some k).
(** Every observation has [n] entries. *)
Definition sized {S} (n : nat) (m : machine S) : Prop :=
  (forall s s' o, m_reset m s = (s', Ok o) -> length o = n) /\ (forall a s s' o, m_sim m a s = (s', Ok o) -> length o = n).

(** Entry by entry addition of [row] at the positions [idx]. *)
Definition perturbed (idx : list nat) (row : list R) (o o' : list R) : Prop :=
  length o' = length o /\
  (forall j i e, nth_error idx j = Some i -> nth_error row j = Some e -> exists v, nth_error o i = Some v /\ nth_error o' i = Some (v + e)) /\
  (forall i, ~ In i idx -> nth_error o' i = nth_error o i).

(** The [b]-th result of a generator (from 0), [b] results having been drawn before. *)
Fixpoint gen_after {G A} (draw : G -> call G A) (b : nat) (g : G) : G := match b with O => g | Datatypes.S b' => fst (draw (gen_after draw b' g)) end.
Definition nth_draw {G A} (draw : G -> call G A) (b : nat) (g : G) : res A := snd (draw (gen_after draw b g)).

(** The voltages [u] that a dq action [v] stands for at the angle [e]: turned back by the
    transformation of the three phase systems they are [v].  A doubly fed motor has a second
    pair for the rotor, seen at [fx - e]; an excitation voltage is not transformed. *)
Definition action_size (k : dqkind) : nat := match k with DqClassic _ => 2 | DqDfim _ => 4 | DqEesm => 3 end.
Definition turned (k : dqkind) (e fx : R) (v u : list R) : Prop :=
  abc_to_dq (firstn 3 u) e false = Ok (firstn 2 v) /\
  match k with
  | DqClassic _ => length u = 3%nat
  | DqDfim _ => length u = 6%nat /\ abc_to_dq (skipn 3 u) (fx - e) false = Ok (skipn 2 v)
  | DqEesm => length u = 4%nat /\ skipn 3 u = skipn 2 v
  end.
