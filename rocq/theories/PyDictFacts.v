(** Lemmas about Python dictionaries. *)
From Verif Require Export PyDict PyBaseFacts.

Section Facts.
Context {V : Type}.
Implicit Types (d u : dict V) (k : string) (v : V).

Lemma dict_get_in k v d : dict_get k d = Some v -> In (k, v) d.
Proof.
  induction d as [|[k' v'] d IH]; simpl; intros H; [discriminate|].
  destruct (String.eqb_spec k' k) as [->|]; [injection H as ->|]; auto.
Qed.
Lemma dict_get_key k v d : dict_get k d = Some v -> In k (dict_keys d).
Proof. intros H. apply dict_get_in in H. apply (in_map fst) in H. exact H. Qed.
Lemma dict_get_none k d : dict_get k d = None <-> ~ In k (dict_keys d).
Proof.
  induction d as [|[k' v'] d IH]; simpl; [tauto|].
  destruct (String.eqb_spec k' k) as [->|Hne].
  - split; [discriminate|]. intros H; exfalso; apply H; auto.
  - rewrite IH. intuition.
Qed.
Lemma dict_get_some_iff k d : (exists v, dict_get k d = Some v) <-> In k (dict_keys d).
Proof.
  destruct (dict_get k d) as [v|] eqn:E.
  - split; eauto. intros _. eapply dict_get_key; eauto.
  - apply dict_get_none in E. split; [intros [v H]; discriminate|tauto].
Qed.
Lemma dict_in_get k v d : NoDup (dict_keys d) -> In (k, v) d -> dict_get k d = Some v.
Proof.
  induction d as [|[k' v'] d IH]; simpl; intros Hnd H; [contradiction|].
  inversion Hnd as [|? ? Hni Hnd']; subst.
  destruct H as [H|H].
  - injection H as -> ->. now rewrite String.eqb_refl.
  - destruct (String.eqb_spec k' k) as [->|]; auto.
    exfalso; apply Hni. apply (in_map fst) in H. exact H.
Qed.

Lemma dict_get_set k k' v d :
  dict_get k (dict_set k' v d) = if String.eqb k' k then Some v else dict_get k d.
Proof.
  induction d as [|[k1 v1] d IH]; simpl; auto.
  destruct (String.eqb_spec k1 k') as [->|Hne]; simpl.
  - destruct (String.eqb_spec k' k); auto.
  - destruct (String.eqb_spec k1 k) as [->|].
    + destruct (String.eqb_spec k' k); congruence.
    + exact IH.
Qed.
Lemma dict_keys_set k v d :
  dict_keys (dict_set k v d) = if dict_mem k d then dict_keys d else dict_keys d ++ [k].
Proof.
  unfold dict_mem. induction d as [|[k1 v1] d IH]; simpl; auto.
  destruct (String.eqb_spec k1 k) as [->|Hne]; simpl; auto.
  rewrite IH. destruct (dict_get k d); reflexivity.
Qed.
Lemma dict_keys_set_in k v d : In k (dict_keys d) -> dict_keys (dict_set k v d) = dict_keys d.
Proof.
  intros H. rewrite dict_keys_set. unfold dict_mem.
  apply dict_get_some_iff in H as [w ->]. reflexivity.
Qed.
Lemma in_dict_keys_set k k' v d : In k (dict_keys (dict_set k' v d)) <-> k = k' \/ In k (dict_keys d).
Proof.
  rewrite <- !dict_get_some_iff, dict_get_set.
  destruct (String.eqb_spec k' k) as [->|Hne].
  - split; eauto.
  - split; [auto|]. intros [->|H]; [congruence|auto].
Qed.
Lemma dict_set_nodup k v d : NoDup (dict_keys d) -> NoDup (dict_keys (dict_set k v d)).
Proof.
  intros H. rewrite dict_keys_set. unfold dict_mem.
  destruct (dict_get k d) eqn:E; auto.
  apply dict_get_none in E. apply NoDup_rev in H.
  rewrite <- (rev_involutive (dict_keys d ++ [k])). apply NoDup_rev.
  rewrite rev_app_distr. simpl. constructor; auto. now rewrite <- in_rev.
Qed.

Lemma dict_update_nodup d u : NoDup (dict_keys d) -> NoDup (dict_keys (dict_update d u)).
Proof.
  revert d; induction u as [|[k v] u IH]; simpl; intros d H; auto.
  apply IH, dict_set_nodup, H.
Qed.
Lemma dict_get_update_notin k d u : ~ In k (dict_keys u) -> dict_get k (dict_update d u) = dict_get k d.
Proof.
  revert d; induction u as [|[k1 v1] u IH]; simpl; intros d H; auto.
  rewrite IH by tauto. rewrite dict_get_set.
  destruct (String.eqb_spec k1 k); tauto.
Qed.
(** The last pair with the key wins. *)
Lemma dict_get_update_last k v d l m :
  ~ In k (map fst m) -> dict_get k (dict_update d (l ++ (k, v) :: m)) = Some v.
Proof.
  intros H. unfold dict_update. rewrite fold_left_app. simpl.
  change (dict_get k (dict_update (dict_set k v (dict_update d l)) m) = Some v).
  rewrite dict_get_update_notin by exact H. rewrite dict_get_set, String.eqb_refl. reflexivity.
Qed.
Lemma dict_get_update k d u : NoDup (dict_keys u) ->
  dict_get k (dict_update d u) = match dict_get k u with Some v => Some v | None => dict_get k d end.
Proof.
  intros Hnd. destruct (dict_get k u) as [v|] eqn:E.
  - apply dict_get_in in E. apply in_split in E as (l & m & ->).
    apply dict_get_update_last. unfold dict_keys in Hnd.
    rewrite map_app in Hnd. simpl in Hnd. apply NoDup_remove_2 in Hnd.
    intros H. apply Hnd. apply in_or_app. auto.
  - apply dict_get_update_notin. now apply dict_get_none.
Qed.
Lemma in_dict_keys_update k d u : In k (dict_keys (dict_update d u)) <-> In k (dict_keys u) \/ In k (dict_keys d).
Proof.
  revert d; induction u as [|[k1 v1] u IH]; simpl; intros d; [tauto|].
  rewrite IH, in_dict_keys_set. intuition.
Qed.
Lemma dict_keys_update_sub d u :
  (forall k, In k (dict_keys u) -> In k (dict_keys d)) -> dict_keys (dict_update d u) = dict_keys d.
Proof.
  revert d; induction u as [|[k1 v1] u IH]; simpl; intros d H; auto.
  assert (dict_keys (dict_set k1 v1 d) = dict_keys d) as E by (apply dict_keys_set_in; apply H; auto).
  rewrite IH; auto. intros k Hk. rewrite E. apply H; auto.
Qed.

Lemma dict_of_pairs_nodup (l : list (string * V)) : NoDup (dict_keys (dict_of_pairs l)).
Proof. apply dict_update_nodup. constructor. Qed.
Lemma in_dict_of_pairs k (l : list (string * V)) : In k (dict_keys (dict_of_pairs l)) <-> In k (map fst l).
Proof. unfold dict_of_pairs. rewrite in_dict_keys_update. simpl. unfold dict_keys. tauto. Qed.
Lemma dict_get_fromkeys k ks v :
  dict_get k (dict_fromkeys ks v) = if str_in k ks then Some v else None.
Proof.
  assert (forall d, dict_get k (dict_update d (map (fun k => (k, v)) ks)) =
            if str_in k ks then Some v else dict_get k d) as H.
  { induction ks as [|k1 ks IH]; simpl; intros d; auto.
    rewrite IH, dict_get_set. rewrite (String.eqb_sym k k1).
    destruct (str_in k ks), (String.eqb k1 k); reflexivity. }
  apply H.
Qed.

End Facts.

Lemma str_in_true s l : str_in s l = true <-> In s l.
Proof.
  unfold str_in. rewrite existsb_exists. split.
  - intros (x & Hx & E). apply String.eqb_eq in E. now subst.
  - intros H. exists s. split; auto. apply String.eqb_refl.
Qed.
Lemma str_in_false s l : str_in s l = false <-> ~ In s l.
Proof. rewrite <- str_in_true. destruct (str_in s l); intuition congruence. Qed.

Lemma lower_idem s : lower (lower s) = lower s.
Proof.
  induction s as [|c s IH]; simpl; auto. f_equal; auto.
  unfold lower_ascii at 2 3. destruct (Nat.leb 65 (Ascii.nat_of_ascii c) && Nat.leb (Ascii.nat_of_ascii c) 90) eqn:E.
  - apply andb_prop in E as [E1 E2]. apply Nat.leb_le in E1, E2.
    unfold lower_ascii. rewrite Ascii.nat_ascii_embedding by lia.
    destruct (Nat.leb_spec (Ascii.nat_of_ascii c + 32) 90); [lia|]. now rewrite andb_false_r.
  - unfold lower_ascii. now rewrite E.
Qed.
