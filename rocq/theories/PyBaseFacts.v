(** Lemmas about the vocabulary of [PyBase]. *)
From Verif Require Export PyBase.

Lemma rlt_true x y : rlt x y = true <-> x < y.
Proof. unfold rlt; destruct (Rlt_dec x y); split; intros; auto; try discriminate; lra. Qed.
Lemma rlt_false x y : rlt x y = false <-> y <= x.
Proof. unfold rlt; destruct (Rlt_dec x y); split; intros; auto; try discriminate; lra. Qed.
Lemma rle_true x y : rle x y = true <-> x <= y.
Proof. unfold rle; destruct (Rle_dec x y); split; intros; auto; try discriminate; lra. Qed.
Lemma rle_false x y : rle x y = false <-> y < x.
Proof. unfold rle; destruct (Rle_dec x y); split; intros; auto; try discriminate; lra. Qed.
Lemma req_true x y : req x y = true <-> x = y.
Proof. unfold req; destruct (Req_EM_T x y); split; intros; auto; try discriminate; lra. Qed.
Lemma req_false x y : req x y = false <-> x <> y.
Proof. unfold req; destruct (Req_EM_T x y); split; intros; auto; try discriminate; congruence. Qed.

Lemma rltP x y : reflect (x < y) (rlt x y).
Proof. unfold rlt; destruct (Rlt_dec x y); constructor; auto. Qed.
Lemma rleP x y : reflect (x <= y) (rle x y).
Proof. unfold rle; destruct (Rle_dec x y); constructor; auto. Qed.
Lemma reqP x y : reflect (x = y) (req x y).
Proof. unfold req; destruct (Req_EM_T x y); constructor; auto. Qed.

(** Case split on one comparison in the goal. *)
Ltac rcase :=
  match goal with
  | |- context [rlt ?x ?y] => destruct (rltP x y)
  | |- context [rle ?x ?y] => destruct (rleP x y)
  | |- context [req ?x ?y] => destruct (reqP x y)
  end.
(** Case split on one comparison in a hypothesis. *)
Ltac rcase_in H :=
  match type of H with
  | context [rlt ?x ?y] => destruct (rltP x y)
  | context [rle ?x ?y] => destruct (rleP x y)
  | context [req ?x ?y] => destruct (reqP x y)
  end.
(** Decide all comparisons, discharging impossible branches with [lra]. *)
Ltac rdecide := repeat (rcase; try (exfalso; lra)).

Lemma np_clip_lb x lo hi : lo <= hi -> lo <= np_clip x lo hi.
Proof. intros H; unfold np_clip; apply Rmin_glb; auto; apply Rmax_r. Qed.
Lemma np_clip_ub x lo hi : np_clip x lo hi <= hi.
Proof. unfold np_clip; apply Rmin_r. Qed.
Lemma np_clip_id x lo hi : lo <= x <= hi -> np_clip x lo hi = x.
Proof. intros [H1 H2]; unfold np_clip; rewrite Rmax_left by lra; apply Rmin_left; lra. Qed.
Lemma np_clip_mono x y lo hi : x <= y -> np_clip x lo hi <= np_clip y lo hi.
Proof.
  intros H; unfold np_clip. apply Rmin_glb; [|apply Rmin_r].
  eapply Rle_trans; [apply Rmin_l|]. apply Rmax_lub; [|apply Rmax_r].
  eapply Rle_trans; [exact H|apply Rmax_l].
Qed.
Lemma np_clip_cases x lo hi :
  lo <= hi ->
  (x < lo /\ np_clip x lo hi = lo) \/
  (lo <= x <= hi /\ np_clip x lo hi = x) \/
  (hi < x /\ np_clip x lo hi = hi).
Proof.
  intros H; unfold np_clip.
  destruct (Rlt_le_dec x lo).
  - left; split; auto. rewrite Rmax_right by lra. apply Rmin_left; lra.
  - right. rewrite Rmax_left by lra. destruct (Rle_lt_dec x hi).
    + left; split; [lra|]. apply Rmin_left; lra.
    + right; split; auto. apply Rmin_right; lra.
Qed.

Lemma map2_length {A B C} (f : A -> B -> C) l m :
  length (map2 f l m) = Nat.min (length l) (length m).
Proof. revert m; induction l as [|a l IH]; intros [|b m]; simpl; auto. Qed.

Lemma map2_nth_error {A B C} (f : A -> B -> C) l m i :
  nth_error (map2 f l m) i =
  match nth_error l i, nth_error m i with
  | Some a, Some b => Some (f a b)
  | _, _ => None
  end.
Proof.
  revert m i; induction l as [|a l IH]; intros [|b m] [|i]; simpl; auto.
  destruct (nth_error l i); reflexivity.
Qed.

Lemma select_ok {A} idx (l : list A) :
  (forall i, In i idx -> (i < length l)%nat) ->
  exists r, select idx l = Ok r /\ length r = length idx /\
    forall k i, nth_error idx k = Some i -> nth_error r k = nth_error l i.
Proof.
  induction idx as [|i idx IH]; simpl; intros H.
  - exists []; repeat split; auto. intros [|k] i; discriminate.
  - destruct (nth_error l i) eqn:E.
    + destruct IH as (r & Hr & Hl & Hn); [intros; apply H; auto|].
      exists (a :: r); rewrite Hr; simpl; repeat split; auto.
      intros [|k] j Hj; simpl in *; [injection Hj as <-; auto | apply Hn; auto].
    + exfalso. apply nth_error_None in E. specialize (H i (or_introl eq_refl)). lia.
Qed.

Lemma select_err {A} idx (l : list A) :
  (exists i, In i idx /\ (length l <= i)%nat) -> select idx l = Err IndexError.
Proof.
  induction idx as [|i idx IH]; simpl; intros (j & Hj & Hl); [contradiction|].
  destruct (nth_error l i) eqn:E; auto.
  destruct Hj as [->|Hj].
  - apply nth_error_None in Hl; congruence.
  - rewrite IH; auto. exists j; auto.
Qed.

Lemma select_inv {A} idx (l r : list A) :
  select idx l = Ok r ->
  length r = length idx /\
  forall k i, nth_error idx k = Some i -> nth_error r k = nth_error l i.
Proof.
  revert r; induction idx as [|i idx IH]; simpl; intros r H.
  - injection H as <-; split; auto. intros [|k] j; discriminate.
  - destruct (nth_error l i) eqn:E; [|discriminate].
    destruct (select idx l) as [r'|]; simpl in H; [|discriminate].
    injection H as <-. destruct (IH r' eq_refl) as [Hl Hn]. simpl; split; auto.
    intros [|k] j Hj; simpl in *; [injection Hj as <-; auto | apply Hn; auto].
Qed.

Lemma str_index_ok s l i :
  str_index s l = Ok i -> nth_error l i = Some s.
Proof.
  revert i; induction l as [|x l IH]; simpl; intros i H; [discriminate|].
  destruct (String.eqb_spec x s).
  - injection H as <-; simpl; congruence.
  - destruct (str_index s l); simpl in H; [|discriminate].
    injection H as <-; simpl; auto.
Qed.

Lemma str_index_err s l e :
  str_index s l = Err e -> e = ValueError /\ ~ In s l.
Proof.
  induction l as [|x l IH]; simpl; intros H.
  - injection H as <-; auto.
  - destruct (String.eqb_spec x s); [discriminate|].
    destruct (str_index s l); simpl in H; [discriminate|].
    injection H as <-. destruct (IH eq_refl); split; auto. intros [?|?]; auto.
Qed.

Lemma str_index_in s l : In s l -> exists i, str_index s l = Ok i.
Proof.
  intros H. destruct (str_index s l) as [i|e] eqn:E; eauto.
  apply str_index_err in E; tauto.
Qed.

Lemma str_index_nodup s l i :
  NoDup l -> nth_error l i = Some s -> str_index s l = Ok i.
Proof.
  revert i; induction l as [|x l IH]; intros i Hnd H; [destruct i; discriminate|].
  inversion Hnd as [|? ? Hni Hnd']; subst. simpl.
  destruct i as [|i]; simpl in H.
  - injection H as ->. now rewrite String.eqb_refl.
  - destruct (String.eqb_spec x s) as [->|Hne].
    + exfalso; apply Hni. eapply nth_error_In; eauto.
    + rewrite (IH i); auto.
Qed.

Lemma rsum_app l m : rsum (l ++ m) = rsum l + rsum m.
Proof. induction l; simpl; lra. Qed.

Lemma rsum_nonneg l : (forall x, In x l -> 0 <= x) -> 0 <= rsum l.
Proof.
  induction l as [|a l IH]; simpl; intros H; [lra|].
  pose proof (H a (or_introl eq_refl)). specialize (IH (fun x h => H x (or_intror h))). lra.
Qed.

Lemma rsum_zero l : (forall x, In x l -> 0 <= x) -> rsum l = 0 -> forall x, In x l -> x = 0.
Proof.
  induction l as [|a l IH]; simpl; intros H Hs x Hx; [contradiction|].
  pose proof (H a (or_introl eq_refl)) as Ha.
  pose proof (rsum_nonneg l (fun x h => H x (or_intror h))).
  destruct Hx as [->|Hx]; [lra|]. apply IH; auto; lra.
Qed.

Lemma list_set_length {A} i (v : A) l : length (list_set i v l) = length l.
Proof. revert i; induction l; destruct i; simpl; auto. Qed.

Lemma list_set_nth_error {A} i j (v : A) l :
  nth_error (list_set i v l) j =
  if Nat.eqb i j then (if Nat.ltb j (length l) then Some v else None) else nth_error l j.
Proof.
  revert i j; induction l as [|x l IH]; intros i j.
  - destruct i; simpl; destruct j; simpl; auto; destruct (Nat.eqb _ _); auto.
  - destruct i as [|i], j as [|j]; simpl; auto.
    rewrite IH; auto.
Qed.
