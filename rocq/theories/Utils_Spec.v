(** Specification for utils.py. *)
From Verif Require Import PyDict.

(** The value a user dictionary gives to the state [name]: the last entry whose
    key is [name] up to letter case; 0 if there is none. *)
Definition value_for (name : string) (d : dict R) : R :=
  fold_left (fun acc kv => if String.eqb (lower (fst kv)) name then snd kv else acc) d 0.
