(** Vocabulary for the transformations. *)
From Verif Require Import PyBase.

(** A balanced three phase quantity with amplitude [a] and angle [th] (phases
    shifted by a third of a turn). *)
Definition balanced (a th : R) : list R :=
  [a * cos th; a * cos (th - 2 * PI / 3); a * cos (th - 4 * PI / 3)].
(** Sum over the phases of voltage times current. *)
Fixpoint power (u i : list R) : R :=
  match u, i with x :: u', y :: i' => x * y + power u' i' | _, _ => 0 end.
Definition norm2 (x : list R) : R := rsum (map (fun a => a * a) x).
