(** Properties C14, C15: state arrays and parameter dictionaries. *)
From Verif Require Import PyDictFacts Utils_Model Utils_Spec Utils_Proofs.

(** *** C14 *)
Theorem state_array_from_dict :
  forall d names, NoDup names ->
  (set_state_array (InDict d) names = Err AssertionError /\
   exists k, In k (dict_keys d) /\ ~ In (lower k) names) \/
  ((forall k, In k (dict_keys d) -> In (lower k) names) /\
   exists arr, set_state_array (InDict d) names = Ok arr /\ length arr = length names /\
     forall i name, nth_error names i = Some name -> nth_error arr i = Some (value_for name d)).
Proof. exact set_state_array_dict. Qed.
Print Assumptions state_array_from_dict.

Theorem state_array_from_list :
  forall l names,
  (length l = length names -> set_state_array (InList l) names = Ok l /\
                              set_state_array (InArray l) names = Ok l) /\
  (length l <> length names -> set_state_array (InList l) names = Err AssertionError /\
                               set_state_array (InArray l) names = Err AssertionError).
Proof.
  intros l names. simpl. destruct (Nat.eqb_spec (length l) (length names)); simpl; split; intros; try tauto; lia.
Qed.
Print Assumptions state_array_from_list.

Theorem state_array_from_scalar :
  forall x names, exists arr, set_state_array (InNum x) names = Ok arr /\
    length arr = length names /\ forall y, In y arr -> y = x.
Proof.
  intros x names. exists (repeat x (length names)). simpl. repeat split.
  - apply repeat_length.
  - intros y Hy. eapply repeat_spec; eauto.
Qed.
Print Assumptions state_array_from_scalar.

Example state_array_example :
  exists arr, set_state_array (InDict [("I", 7); ("omega", 3)]%string) ["omega"; "torque"; "i"]%string = Ok arr
    /\ arr = [3; 0; 7].
Proof. eexists; split; reflexivity. Qed.
Example state_array_unknown :
  set_state_array (InDict [("foo", 7)]%string) ["omega"]%string = Err AssertionError.
Proof. reflexivity. Qed.

(** *** C15 *)
Theorem update_parameter_dict_all_or_nothing :
  forall (V : Type) (s u : dict V) copy, NoDup (dict_keys u) ->
  (snd (update_parameter_dict s u copy) = Err KeyError /\
   fst (update_parameter_dict s u copy) = s /\
   exists k, In k (dict_keys u) /\ ~ In k (dict_keys s)) \/
  ((forall k, In k (dict_keys u) -> In k (dict_keys s)) /\
   exists new, snd (update_parameter_dict s u copy) = Ok new /\
     fst (update_parameter_dict s u copy) = (if copy then s else new) /\
     dict_keys new = dict_keys s /\
     forall k, dict_get k new = match dict_get k u with Some v => Some v | None => dict_get k s end).
Proof. exact @update_dict_spec. Qed.
Print Assumptions update_parameter_dict_all_or_nothing.

Example update_example :
  update_parameter_dict [("a", 1); ("b", 2)]%string [("b", 5)]%string true =
    ([("a", 1); ("b", 2)]%string, Ok [("a", 1); ("b", 5)]%string) /\
  snd (update_parameter_dict [("a", 1)]%string [("c", 5)]%string false) = Err KeyError.
Proof. split; reflexivity. Qed.
