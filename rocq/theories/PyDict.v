(** Python dictionaries with string keys: association lists in insertion
    order.  All operations below keep the keys distinct. *)
From Verif Require Export PyBase.

Definition dict (V : Type) := list (string * V).

Section Dict.
Context {V : Type}.

Definition dict_keys (d : dict V) : list string := map fst d.
Definition dict_values (d : dict V) : list V := map snd d.

(** [d.get(k)] *)
Fixpoint dict_get (k : string) (d : dict V) : option V :=
  match d with
  | [] => None
  | (k', v) :: d' => if String.eqb k' k then Some v else dict_get k d'
  end.
Definition dict_mem (k : string) (d : dict V) : bool :=
  match dict_get k d with Some _ => true | None => false end.
(** [d[k]] *)
Definition dict_item (k : string) (d : dict V) : res V :=
  match dict_get k d with Some v => Ok v | None => Err KeyError end.
(** [d[k] = v]: the position of an existing key is kept, a new key goes last. *)
Fixpoint dict_set (k : string) (v : V) (d : dict V) : dict V :=
  match d with
  | [] => [(k, v)]
  | (k', v') :: d' => if String.eqb k' k then (k', v) :: d' else (k', v') :: dict_set k v d'
  end.
(** [d.update(u)] *)
Definition dict_update (d u : dict V) : dict V :=
  fold_left (fun acc kv => dict_set (fst kv) (snd kv) acc) u d.
(** [dict(pairs)] *)
Definition dict_of_pairs (l : list (string * V)) : dict V := dict_update [] l.
(** [dict.fromkeys(keys, v)] *)
Definition dict_fromkeys (ks : list string) (v : V) : dict V :=
  dict_of_pairs (map (fun k => (k, v)) ks).

End Dict.

(** [str.lower], ASCII letters only. *)
Definition lower_ascii (c : Ascii.ascii) : Ascii.ascii :=
  let n := Ascii.nat_of_ascii c in
  if Nat.leb 65 n && Nat.leb n 90 then Ascii.ascii_of_nat (n + 32) else c.
Fixpoint lower (s : string) : string :=
  match s with
  | String.EmptyString => String.EmptyString
  | String.String c s' => String.String (lower_ascii c) (lower s')
  end.

(** [x in l] for a list of strings. *)
Definition str_in (s : string) (l : list string) : bool := existsb (String.eqb s) l.
