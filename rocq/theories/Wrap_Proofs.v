(** Proofs about the wrappers. *)
From Verif Require Import PyBase PyBaseFacts PyDict PyDictFacts Conv_Model Transform_Model Transform_Proofs PhysSys_Model PhysSys_Proofs PhysSys_Proofs2 Wrap_Model Wrap_Spec.
Local Open Scope R_scope.

Lemma Ok_inj {A} (a b : A) : Ok a = Ok b -> a = b.
Proof. congruence. Qed.
Ltac bindh H := match type of H with bind ?e _ = Ok _ => let v := fresh "v" in let E := fresh "E" in destruct e as [v|] eqn:E; cbn [bind] in H; [|discriminate] end.

(** ** Dead time *)
Section DeadFacts.
Context {S Q : Type}.
Notation dead := (dead S Q).
Lemma pop_right_snoc q a : pop_right (q ++ [a]) = Some (q, a).
Proof. unfold pop_right. rewrite rev_unit, rev_involutive. reflexivity. Qed.
Lemma pop_right_inv q q' a : pop_right q = Some (q', a) -> q = q' ++ [a].
Proof. unfold pop_right. destruct (rev q) as [|b l] eqn:E; [discriminate|]. intros H. injection H as <- <-. rewrite <- (rev_involutive q), E. reflexivity. Qed.
Lemma nonempty_snoc {A} (q : list A) : q <> [] -> exists q' a, q = q' ++ [a].
Proof. intros H. destruct (exists_last H) as (q' & a & E). eauto. Qed.

Lemma sims_dead d src (m : machine S) acts : forall q (c : Q) s, q <> [] -> (length q <= d)%nat ->
  let r := sims (dead_machine d src m) acts {| dd_deque := q; dd_src := c; dd_in := s |} in
  let r' := sims m (after (rev q) acts) s in
  dd_in (fst r) = fst r' /\ dd_src (fst r) = c /\ snd r = snd r'.
Proof.
  induction acts as [|a acts IH]; intros q c s Hq Hl; cbn zeta.
  - cbn. auto.
  - destruct (nonempty_snoc q Hq) as (q' & b & ->). rewrite app_length in Hl. cbn [length] in Hl. unfold after. cbn [length]. rewrite rev_unit. cbn [app firstn sims].
    cbn [dead_machine m_sim]. unfold dead_sim at 1 2 3. cbn [dd_deque dd_in dd_src]. rewrite pop_right_snoc. destruct (m_sim m b s) as [s1 [o|e]]; [|cbn; auto].
    assert (Ea : append_left d a q' = a :: q') by (unfold append_left; apply firstn_all2; cbn; lia). rewrite Ea.
    specialize (IH (a :: q') c s1 ltac:(discriminate) ltac:(cbn; lia)). cbn zeta in IH.
    replace (firstn (length acts) (rev q' ++ a :: acts)) with (after (rev (a :: q')) acts) by (unfold after; cbn [rev]; now rewrite <- app_assoc).
    change {| m_info := dead_info d (m_info m); m_reset := dead_reset d src m; m_sim := dead_sim d m |} with (dead_machine d src m).
    destruct (sims (dead_machine d src m) acts {| dd_deque := a :: q'; dd_src := c; dd_in := s1 |}) as [x out]. destruct (sims m (after (rev (a :: q')) acts) s1) as [y out']. cbn [fst snd] in *. destruct IH as (H1 & H2 & ->). auto.
Qed.
Lemma lastn_length {A} n (l : list A) : length (lastn n l) = Nat.min n (length l).
Proof. unfold lastn. rewrite skipn_length. lia. Qed.
Lemma lastn_all {A} n (l : list A) : (length l <= n)%nat -> lastn n l = l.
Proof. intros H. unfold lastn. replace (length l - n)%nat with O by lia. reflexivity. Qed.

Lemma episode_dead d src (m : machine S) acts (x : dead) q l : (0 < d)%nat -> src (dd_src x) = (q, Ok l) -> l <> [] ->
  let r := episode (dead_machine d src m) acts x in let r' := episode m (after (rev (lastn d l)) acts) (dd_in x) in
  dd_in (fst r) = fst r' /\ snd r = snd r'.
Proof.
  intros Hd Hs Hl. cbn zeta. unfold episode. cbn [dead_machine m_reset]. unfold dead_reset. destruct (m_reset m (dd_in x)) as [s [o|e]]; [|cbn; auto]. rewrite Hs. unfold extend. cbn [app].
  assert (Hne : lastn d l <> []). { intros E. apply (f_equal (@length _)) in E. rewrite lastn_length in E. destruct l; [contradiction|]. cbn in E. lia. }
  assert (Hle : (length (lastn d l) <= d)%nat) by (rewrite lastn_length; lia).
  destruct (sims_dead d src m acts (lastn d l) q s Hne Hle) as (H1 & _ & H3). cbn zeta in *.
  destruct (sims (dead_machine d src m) acts _) as [y out]. destruct (sims m _ s) as [y' out']. cbn [fst snd] in *. subst. auto.
Qed.
Lemma after_length l acts : length (after l acts) = length acts.
Proof. unfold after. rewrite firstn_length, app_length. lia. Qed.
Lemma after_after l1 l2 acts : after l2 (after l1 acts) = after (l2 ++ l1) acts.
Proof.
  unfold after at 1. rewrite after_length. unfold after. rewrite <- app_assoc. rewrite (firstn_app _ l2), (firstn_app _ l2). f_equal. rewrite firstn_firstn. f_equal. lia.
Qed.
Lemma rev_repeat {A} (a : A) n : rev (repeat a n) = repeat a n.
Proof. induction n as [|n IH]; [reflexivity|]. cbn [repeat rev]. rewrite IH. clear IH. induction n as [|n IH]; [reflexivity|]. cbn. now rewrite IH. Qed.
Lemma after_nth d a acts n : (n < length acts)%nat -> nth_error (after (repeat a d) acts) n = if Nat.ltb n d then Some a else nth_error acts (n - d).
Proof.
  intros Hn. unfold after. assert (E : forall {A} k (l : list A) j, (j < k)%nat -> nth_error (firstn k l) j = nth_error l j).
  { intros A. induction k as [|k IH]; intros [|y l] [|j] H; cbn; try lia; try reflexivity. apply IH. lia. }
  rewrite E by exact Hn. destruct (Nat.ltb_spec n d) as [H|H].
  - rewrite nth_error_app1 by (rewrite repeat_length; exact H). now apply nth_error_repeat.
  - rewrite nth_error_app2 by (rewrite repeat_length; exact H). now rewrite repeat_length.
Qed.
End DeadFacts.

Lemma dead_default_inv {S} d (m : machine S) M : dead_default d m = Ok M ->
  (0 < d)%Z /\ exists a, default_action (i_act (m_info m)) = Ok a /\ M = dead_machine (Z.to_nat d) (fun q : unit => (q, Ok (repeat a (Z.to_nat d)))) m.
Proof.
  intros H. unfold dead_default, py_assert in H. destruct (Z.ltb_spec 0 d) as [Hd|]; [|discriminate]. cbn [bind] in H. bindh H. apply Ok_inj in H. eauto.
Qed.
Lemma dead_default_episode {S} d (m : machine S) M a acts x : dead_default d m = Ok M -> default_action (i_act (m_info m)) = Ok a ->
  dd_in (fst (episode M acts x)) = fst (episode m (after (repeat a (Z.to_nat d)) acts) (dd_in x)) /\
  snd (episode M acts x) = snd (episode m (after (repeat a (Z.to_nat d)) acts) (dd_in x)).
Proof.
  intros H Ha. destruct (dead_default_inv _ _ _ H) as (Hd & a' & Ha' & ->). assert (a' = a) by congruence. subst a'.
  pose proof (episode_dead (Z.to_nat d) (fun q : unit => (q, Ok (repeat a (Z.to_nat d)))) m acts x (dd_src x) (repeat a (Z.to_nat d)) ltac:(lia) eq_refl) as E. cbn zeta in E.
  rewrite lastn_all, rev_repeat in E by (rewrite repeat_length; lia). apply E. destruct (Z.to_nat d) eqn:E0; [lia|discriminate].
Qed.
