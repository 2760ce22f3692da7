(** Model of src/gym_electric_motor/utils.py. *)
From Verif Require Import PyDict.

(** [state_array[ind] = v]: IndexError past the end. *)
Definition array_set (arr : list R) (i : nat) (v : R) : res (list R) :=
  if Nat.ltb i (length arr) then Ok (list_set i v arr) else Err IndexError.

(** The loop of [state_dict_to_state_array], utils.py 33-37, from index [ind].
    A missing key is caught and skipped. *)
Fixpoint fill_array (d : dict R) (arr : list R) (ind : nat) (names : list string) : res (list R) :=
  match names with
  | [] => Ok arr
  | key :: names' =>
      match dict_get key d with
      | Some v => do arr' <- array_set arr ind v; fill_array d arr' (S ind) names'
      | None => fill_array d arr (S ind) names'
      end
  end.

(** [state_dict_to_state_array], utils.py 19-37.  The array is passed by
    reference; the function returns its new content. *)
Definition state_dict_to_state_array (d : dict R) (arr : list R) (names : list string) : res (list R) :=
  let d' := dict_of_pairs (map (fun kv => (lower (fst kv), snd kv)) d) in       (* 31 *)
  do _ <- py_assert (forallb (fun k => str_in k names) (dict_keys d'));         (* 32 *)
  fill_array d' arr 0 names.

(** What may be passed as [input_values]. *)
Inductive input :=
| InDict (d : dict R)
| InArray (l : list R)        (* numpy.ndarray *)
| InList (l : list R)
| InNum (x : R)               (* float or int *)
| InOther.                    (* any other type, e.g. None, str or tuple *)

(** [set_state_array], utils.py 40-70. *)
Definition set_state_array (inp : input) (names : list string) : res (list R) :=
  match inp with
  | InDict d => state_dict_to_state_array d (repeat 0 (length names)) names
  | InArray l => do _ <- py_assert (Nat.eqb (length l) (length names)); Ok l
  | InList l => do _ <- py_assert (Nat.eqb (length l) (length names)); Ok l
  | InNum x => Ok (repeat x (length names))
  | InOther => Err PlainException
  end.

(** [update_parameter_dict], utils.py 73-94.  Returns the content of
    [source_dict] after the call and the result. *)
Definition update_parameter_dict {V} (source update : dict V) (copy : bool)
  : dict V * res (dict V) :=
  if forallb (fun k => dict_mem k source) (dict_keys update) then
    let new := dict_update source update in
    ((if copy then source else new), Ok new)
  else (source, Err KeyError).
