(** Lemmas about utils.py. *)
From Verif Require Import PyDictFacts Utils_Model Utils_Spec.

Lemma forallb_in ks names :
  forallb (fun k => str_in k names) ks = true <-> forall k, In k ks -> In k names.
Proof.
  rewrite forallb_forall. split; intros H k Hk; [apply str_in_true|apply str_in_true]; auto.
Qed.

Definition lowered {V} (d : dict V) := map (fun kv => (lower (fst kv), snd kv)) d.

Lemma in_lowered_keys {V} k (d : dict V) :
  In k (dict_keys (dict_of_pairs (lowered d))) <-> exists k', In k' (dict_keys d) /\ k = lower k'.
Proof.
  rewrite in_dict_of_pairs. unfold lowered, dict_keys. rewrite map_map. simpl.
  rewrite in_map_iff. split.
  - intros ([k1 v1] & <- & H). exists k1. split; auto. apply (in_map fst) in H. exact H.
  - intros (k' & Hk & ->). apply in_map_iff in Hk as ([k1 v1] & <- & H). exists (k1, v1). auto.
Qed.

Lemma value_for_get name (d : dict R) :
  value_for name d =
  match dict_get name (dict_of_pairs (lowered d)) with Some v => v | None => 0 end.
Proof.
  unfold value_for, dict_of_pairs.
  assert (forall acc x, (match dict_get name acc with Some v => v | None => 0 end) = x ->
     fold_left (fun acc kv => if String.eqb (lower (fst kv)) name then snd kv else acc) d x =
     match dict_get name (dict_update acc (lowered d)) with Some v => v | None => 0 end) as H.
  { induction d as [|[k v] d IH]; simpl; intros acc x Hx; auto.
    apply IH. rewrite dict_get_set. destruct (String.eqb_spec (lower k) name); auto. }
  now apply H.
Qed.

Lemma fill_array_spec d arr ind names :
  NoDup names -> (ind + length names <= length arr)%nat ->
  exists arr', fill_array d arr ind names = Ok arr' /\ length arr' = length arr /\
    (forall i, (i < ind)%nat -> nth_error arr' i = nth_error arr i) /\
    (forall j name, nth_error names j = Some name ->
       nth_error arr' (ind + j) =
       match dict_get name d with Some v => Some v | None => nth_error arr (ind + j) end).
Proof.
  revert arr ind; induction names as [|key names IH]; intros arr ind Hnd Hlen; simpl.
  - exists arr. repeat split; auto. intros [|j]; discriminate.
  - simpl in Hlen. inversion Hnd as [|? ? Hni Hnd']; subst.
    destruct (dict_get key d) as [v|] eqn:E.
    + unfold array_set. destruct (Nat.ltb_spec ind (length arr)); [|lia]. simpl.
      destruct (IH (list_set ind v arr) (S ind) Hnd') as (arr' & H1 & H2 & H3 & H4).
      { rewrite list_set_length. lia. }
      rewrite list_set_length in H2.
      exists arr'. rewrite H1. repeat split; auto.
      * intros i Hi. rewrite H3 by lia. rewrite list_set_nth_error.
        destruct (Nat.eqb_spec ind i); [lia|reflexivity].
      * intros [|j] name Hj; simpl in Hj.
        -- injection Hj as <-. rewrite E, Nat.add_0_r, H3 by lia.
           rewrite list_set_nth_error, Nat.eqb_refl.
           destruct (Nat.ltb_spec ind (length arr)); [reflexivity|lia].
        -- replace (ind + S j)%nat with (S ind + j)%nat by lia.
           rewrite (H4 _ _ Hj). destruct (dict_get name d); auto.
           rewrite list_set_nth_error. destruct (Nat.eqb_spec ind (S ind + j)); [lia|reflexivity].
    + destruct (IH arr (S ind) Hnd' ltac:(lia)) as (arr' & H1 & H2 & H3 & H4).
      exists arr'. rewrite H1. repeat split; auto.
      intros [|j] name Hj; simpl in Hj.
      * injection Hj as <-. rewrite E, Nat.add_0_r, H3 by lia. reflexivity.
      * replace (ind + S j)%nat with (S ind + j)%nat by lia. apply H4; auto.
Qed.

Lemma nth_error_repeat_R (x : R) n i : (i < n)%nat -> nth_error (repeat x n) i = Some x.
Proof. revert i; induction n; intros [|i] H; simpl; auto; try lia. apply IHn; lia. Qed.

Lemma set_state_array_dict d names :
  NoDup names ->
  (set_state_array (InDict d) names = Err AssertionError /\
   exists k, In k (dict_keys d) /\ ~ In (lower k) names) \/
  ((forall k, In k (dict_keys d) -> In (lower k) names) /\
   exists arr, set_state_array (InDict d) names = Ok arr /\ length arr = length names /\
     forall i name, nth_error names i = Some name -> nth_error arr i = Some (value_for name d)).
Proof.
  intros Hnd. simpl. unfold state_dict_to_state_array. fold (lowered d).
  set (d' := dict_of_pairs (lowered d)).
  destruct (forallb (fun k => str_in k names) (dict_keys d')) eqn:E; simpl.
  - right. rewrite forallb_in in E. split.
    + intros k Hk. apply E. apply in_lowered_keys. eauto.
    + destruct (fill_array_spec d' (repeat 0 (length names)) 0 names Hnd) as (arr & H1 & H2 & _ & H4).
      { rewrite repeat_length. lia. }
      rewrite repeat_length in H2. exists arr. repeat split; auto.
      intros i name Hi. rewrite value_for_get. fold d'.
      specialize (H4 i name Hi). simpl in H4. rewrite H4.
      destruct (dict_get name d'); auto.
      apply nth_error_repeat_R. apply nth_error_Some. congruence.
  - left. split; auto.
    destruct (existsb (fun k => negb (str_in k names)) (dict_keys d')) eqn:Ex.
    + apply existsb_exists in Ex as (k & Hk & Hn). apply negb_true_iff, str_in_false in Hn.
      apply in_lowered_keys in Hk as (k' & Hk' & ->). eauto.
    + exfalso. rewrite <- not_true_iff_false, forallb_in in E. apply E. intros k Hk.
      apply str_in_true. destruct (str_in k names) eqn:Es; auto. exfalso.
      rewrite <- not_true_iff_false, existsb_exists in Ex. apply Ex. exists k.
      rewrite Es. auto.
Qed.

Lemma set_state_array_length inp names arr :
  NoDup names -> set_state_array inp names = Ok arr -> length arr = length names.
Proof.
  intros Hnd H. destruct inp as [d|l|l|x|].
  - destruct (set_state_array_dict d names Hnd) as [[E _]|[_ (a & E & Hl & _)]]; congruence.
  - simpl in H. destruct (Nat.eqb_spec (length l) (length names)); simpl in H; congruence.
  - simpl in H. destruct (Nat.eqb_spec (length l) (length names)); simpl in H; congruence.
  - simpl in H. injection H as <-. apply repeat_length.
  - discriminate.
Qed.

Lemma update_dict_spec {V} (s u : dict V) copy : NoDup (dict_keys u) ->
  (snd (update_parameter_dict s u copy) = Err KeyError /\
   fst (update_parameter_dict s u copy) = s /\
   exists k, In k (dict_keys u) /\ ~ In k (dict_keys s)) \/
  ((forall k, In k (dict_keys u) -> In k (dict_keys s)) /\
   exists new, snd (update_parameter_dict s u copy) = Ok new /\
     fst (update_parameter_dict s u copy) = (if copy then s else new) /\
     dict_keys new = dict_keys s /\
     forall k, dict_get k new = match dict_get k u with Some v => Some v | None => dict_get k s end).
Proof.
  intros Hnd. unfold update_parameter_dict.
  assert (forall k, dict_mem k s = true <-> In k (dict_keys s)) as Hm.
  { intros k. unfold dict_mem. rewrite <- dict_get_some_iff.
    destruct (dict_get k s); split; eauto; intros H; try discriminate. destruct H; discriminate. }
  destruct (forallb (fun k => dict_mem k s) (dict_keys u)) eqn:E; simpl.
  - right. rewrite forallb_forall in E.
    assert (forall k, In k (dict_keys u) -> In k (dict_keys s)) as Hs by (intros k Hk; apply Hm, E, Hk).
    split; auto. eexists. repeat split.
    + apply dict_keys_update_sub; auto.
    + intros k. now apply dict_get_update.
  - left. repeat split.
    destruct (existsb (fun k => negb (dict_mem k s)) (dict_keys u)) eqn:Ex.
    + apply existsb_exists in Ex as (k & Hk & Hn). exists k. split; auto.
      rewrite <- Hm. apply negb_true_iff in Hn. congruence.
    + exfalso. rewrite <- not_true_iff_false, forallb_forall in E. apply E. intros k Hk.
      destruct (dict_mem k s) eqn:Es; auto. exfalso.
      rewrite <- not_true_iff_false, existsb_exists in Ex. apply Ex. exists k. rewrite Es. auto.
Qed.
