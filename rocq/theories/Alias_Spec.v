(** Clients that read only the newest result, and clients that evaluate inside the domain. *)
From Verif Require Import PyBase Solver_Model PhysSys_Model Alias_Model.

(** [n]: evaluations so far. *)
Fixpoint newest_only {U A} (n : nat) (c : client U A) : Prop :=
  match c with
  | CRet _ | CFail _ => True
  | CCall _ _ _ k => newest_only (S n) k
  | CRead i k => S i = n /\ forall v, newest_only n (k v)
  end.
Fixpoint inside {U A} (PP : U -> Prop) (n : nat) (c : client U A) : Prop :=
  match c with
  | CRet _ | CFail _ => True
  | CCall u _ y k => PP u /\ length y = n /\ inside PP n k
  | CRead _ k => forall v, length v = n -> inside PP n (k v)
  end.
