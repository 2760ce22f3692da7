(** Proofs about interlocking, switching times, power balance and the
    continuous converters. *)
From Verif Require Import PyBase PyBaseFacts Conv_Model Conv_Spec Conv_Proofs.

Ltac f2a := repeat match goal with |- Forall2 _ (_ :: _) (_ :: _) => apply Forall2_cons | |- Forall2 _ [] [] => apply Forall2_nil end.

(** ** Shoot-through *)
Definition leg_par (l : f2) : Prop := 0 < f2_il l /\ 0 <= f2_tau l.
Definition leg_J (l : f2) : Prop :=
  leg_par l /\ ((exists a, f2_pat l = [a] /\ f2_sw l = a) \/
                (exists a, f2_pat l = [0%Z; a] /\ (f2_sw l = 0%Z \/ f2_sw l = a))).

Lemma safe_refl x : safe_change x x.
Proof. unfold safe_change, shoot_through. lia. Qed.
Lemma safe_0l x : safe_change 0 x.
Proof. unfold safe_change, shoot_through. lia. Qed.
Lemma safe_0r x : safe_change x 0.
Proof. unfold safe_change, shoot_through. lia. Qed.

Lemma leg_conv_sw t l p0 p : f2_pat l = p0 :: p ->
  f2_sw (leg_conv t l) = (if rlt (f2_start l + f2_il l) (t - f2_tau l / 1000) then last (p0 :: p) 0%Z else p0) /\
  f2_pat (leg_conv t l) = p0 :: p /\ f2_il (leg_conv t l) = f2_il l /\ f2_tau (leg_conv t l) = f2_tau l /\
  f2_start (leg_conv t l) = f2_start l.
Proof.
  intros E. unfold leg_conv, f2_convert, f2_next_sw. rewrite E. destruct (rlt _ _); cbn; auto.
Qed.

Lemma leg_conv_J t l : leg_J l -> leg_J (leg_conv t l) /\ safe_change (f2_sw l) (f2_sw (leg_conv t l)).
Proof.
  intros ((Hil & Htau) & [(a & Hp & Hs) | (a & Hp & Hs)]).
  - destruct (leg_conv_sw t l a [] Hp) as (E1 & E2 & E3 & E4 & _).
    assert (E : f2_sw (leg_conv t l) = a) by (rewrite E1; destruct (rlt _ _); reflexivity).
    split; [|rewrite E, Hs; apply safe_refl]. split; [unfold leg_par; rewrite E3, E4; auto|].
    left. exists a. auto.
  - destruct (leg_conv_sw t l 0%Z [a] Hp) as (E1 & E2 & E3 & E4 & _). cbn [last] in E1.
    assert (E : f2_sw (leg_conv t l) = 0%Z \/ f2_sw (leg_conv t l) = a) by (rewrite E1; destruct (rlt _ _); auto).
    split.
    + split; [unfold leg_par; rewrite E3, E4; auto|]. right. exists a. auto.
    + destruct Hs as [-> | ->]; [apply safe_0l|]. destruct E as [-> | ->]; [apply safe_0r | apply safe_refl].
Qed.

Lemma leg_set_conv l a t : leg_par l -> (0 <= a < 3)%Z ->
  leg_J (leg_conv t (leg_set t l a)) /\ safe_change (f2_sw l) (f2_sw (leg_conv t (leg_set t l a))).
Proof.
  intros (Hil & Htau) Ha. unfold leg_set.
  destruct (f2_set_valid l a t Ha) as (l' & ts & E & Hp & _ & Hsw & Hst & Ht & Hi). rewrite E. cbn [fst].
  assert (Hlt : rlt (t + f2_il l) (t - f2_tau l / 1000) = false) by (apply rlt_false; lra).
  unfold f2_pattern in Hp. cbn [f2_sw f2_il f2_start f2_tau] in Hp.
  destruct ((a =? 0)%Z || (f2_sw l =? 0)%Z || (a =? f2_sw l)%Z || req (f2_il l) 0) eqn:Ec; cbn [fst] in Hp.
  - destruct (leg_conv_sw t l' a [] Hp) as (E1 & E2 & E3 & E4 & _).
    assert (Es : f2_sw (leg_conv t l') = a)
      by (rewrite E1; destruct (rlt (f2_start l' + f2_il l') _); reflexivity).
    split; [split; [unfold leg_par; rewrite E3, E4, Ht, Hi; auto|left; exists a; auto]|].
    rewrite Es. rewrite !orb_true_iff in Ec. destruct Ec as [[[Ec|Ec]|Ec]|Ec].
    + apply Z.eqb_eq in Ec. subst a. apply safe_0r.
    + apply Z.eqb_eq in Ec. rewrite Ec. apply safe_0l.
    + apply Z.eqb_eq in Ec. rewrite <- Ec. apply safe_refl.
    + apply req_true in Ec. lra.
  - destruct (leg_conv_sw t l' 0%Z [a] Hp) as (E1 & E2 & E3 & E4 & _).
    rewrite Hst, Ht, Hi, Hlt in E1.
    split; [split; [unfold leg_par; rewrite E3, E4, Ht, Hi; auto|right; exists a; auto]|].
    rewrite E1. apply safe_0r.
Qed.

Definition legs_par (c : fin) : Prop := Forall leg_par (legs c).
Definition legs_safe (c c' : fin) : Prop := Forall2 safe_change (leg_states c) (leg_states c').

Lemma legs_safe_refl c : legs_safe c c.
Proof. unfold legs_safe. induction (leg_states c); constructor; auto using safe_refl. Qed.

Lemma sub_action_length c a : length (sub_action c a) = length (legs c).
Proof. destruct c; reflexivity. Qed.

Lemma J_par c : Forall leg_J (legs c) -> legs_par c.
Proof. intros H. eapply Forall_impl; [|exact H]. intros l [Hp _]. exact Hp. Qed.
Lemma J_pat c : Forall leg_J (legs c) -> pat_set c.
Proof.
  intros H. eapply Forall_impl; [|exact H]. intros l (_ & [(a & -> & _) | (a & -> & _)]); discriminate.
Qed.

Lemma period_first c a t i : fin_ok c -> legs_par c -> (0 <= a < fin_n c)%Z -> length i = fin_dim c ->
  let c' := fst (fin_convert (fst (fin_set_action c a t)) i t) in
  Forall leg_J (legs c') /\ legs_safe c c' /\ fin_ok c' /\ fin_dim c' = fin_dim c /\ fin_n c' = fin_n c.
Proof.
  intros Hok Hpar Ha Hi c'.
  pose proof (fin_set_valid_pat c a t Ha) as Hps.
  pose proof (fin_step_ok c (OpSet a t) Hok) as Hok1. cbn [fin_step] in Hok1.
  destruct (fin_set_valid c a t Ha) as (c1 & ts & E & Hl & Hn & Hd & _). unfold c'. rewrite E in *. cbn [fst] in *.
  destruct (fin_convert_def c1 i t Hok1 Hps ltac:(congruence)) as (c2 & E2 & Hl2 & Hn2 & Hd2 & _).
  pose proof (fin_step_ok c1 (OpConvert i t) Hok1) as Hok2. cbn [fin_step] in Hok2. rewrite E2 in *. cbn [fst] in *.
  assert (HH : Forall leg_J (legs c2) /\ legs_safe c c2).
  { unfold legs_safe, leg_states. rewrite Hl2, Hl. unfold legs_par in Hpar.
    pose proof (sub_action_valid c a Ha) as Hv. pose proof (sub_action_length c a) as Hlen.
    revert Hpar Hv Hlen. clear. generalize (sub_action c a).
    induction (legs c) as [|l ls IH]; intros [|b bs] Hpar Hv Hlen; cbn in *; try discriminate.
    - split; constructor.
    - inversion Hpar; subst. inversion Hv; subst. injection Hlen as Hlen.
      destruct (leg_set_conv l b t ltac:(assumption) ltac:(assumption)) as [G1 G2].
      destruct (IH bs ltac:(assumption) ltac:(assumption) Hlen) as [I1 I2]. split; constructor; auto. }
  destruct HH. repeat split; auto; congruence.
Qed.

Lemma period_later c i t : fin_ok c -> Forall leg_J (legs c) -> length i = fin_dim c ->
  let c' := fst (fin_convert c i t) in
  Forall leg_J (legs c') /\ legs_safe c c' /\ fin_ok c' /\ fin_dim c' = fin_dim c /\ fin_n c' = fin_n c.
Proof.
  intros Hok HJ Hi c'.
  destruct (fin_convert_def c i t Hok (J_pat c HJ) Hi) as (c2 & E2 & Hl2 & Hn2 & Hd2 & _).
  pose proof (fin_step_ok c (OpConvert i t) Hok) as Hok2. cbn [fin_step] in Hok2. unfold c'. rewrite E2 in *. cbn [fst] in *.
  assert (HH : Forall leg_J (legs c2) /\ legs_safe c c2).
  { unfold legs_safe, leg_states. rewrite Hl2. revert HJ. clear.
    induction (legs c) as [|l ls IH]; intros HJ; cbn in *; [split; constructor|].
    inversion HJ; subst. destruct (leg_conv_J t l ltac:(assumption)) as [G1 G2].
    destruct (IH ltac:(assumption)) as [I1 I2]. split; constructor; auto. }
  destruct HH. auto.
Qed.

Lemma last_cons_default {A} (l : list A) x y d : last (x :: l) d = last (x :: l) y.
Proof. revert x. induction l as [|z l IH]; intros x; [reflexivity|]. apply (IH z). Qed.

Lemma chain_app {A} (Rel : A -> A -> Prop) x l m :
  chain Rel x l -> chain Rel (last l x) m -> chain Rel x (l ++ m).
Proof.
  revert x. induction l as [|y l IH]; intros x H1 H2; [exact H2|]. destruct H1 as [H1 H1'].
  split; [exact H1|]. apply IH; [exact H1'|]. destruct l; [exact H2|].
  rewrite (last_cons_default l a x y). exact H2.
Qed.


Lemma conv_states_safe l : forall c, fin_ok c -> Forall leg_J (legs c) ->
  Forall (fun it => length (fst it) = fin_dim c) l ->
  chain legs_safe c (conv_states c l) /\
  fin_ok (last (conv_states c l) c) /\ legs_par (last (conv_states c l) c) /\
  fin_dim (last (conv_states c l) c) = fin_dim c.
Proof.
  induction l as [|[i t] l IH]; intros c Hok HJ Hl; cbn [conv_states].
  - cbn. auto using J_par.
  - inversion Hl as [|? ? Hi Hl']; subst. cbn [fst] in Hi.
    destruct (period_later c i t Hok HJ Hi) as (H1 & H2 & H3 & H4 & H5).
    set (c' := fst (fin_convert c i t)) in *. rewrite <- H4 in Hl'.
    destruct (IH c' H3 H1 Hl') as (I1 & I2 & I3 & I4).
    assert (Hlast : last (c' :: conv_states c' l) c = last (conv_states c' l) c').
    { destruct (conv_states c' l); [reflexivity|]. exact (last_cons_default _ _ c' c). }
    rewrite Hlast. split; [split; assumption|]. rewrite I4, H4. auto.
Qed.

Lemma use_safe c u : fin_ok c -> legs_par c -> use_ok (fin_dim c) u ->
  chain legs_safe c (use_states c u) /\ fin_ok (last (use_states c u) c) /\
  legs_par (last (use_states c u) c) /\ fin_dim (last (use_states c u) c) = fin_dim c.
Proof.
  intros Hok Hpar Hu. destruct u as [a t i later|].
  - destruct Hu as [Hi Hlater]. unfold use_states.
    destruct (Z_le_dec 0 a) as [Hle|Hgt]; [destruct (Z_lt_dec a (fin_n c)) as [Hlt|Hge]|].
    + destruct (period_first c a t i Hok Hpar (conj Hle Hlt) Hi) as (H1 & H2 & H3 & H4 & H5).
      destruct (fin_set_valid c a t (conj Hle Hlt)) as (c1 & ts & E & _). rewrite E in *. cbn [fst] in *.
      cbn [conv_states]. set (c' := fst (fin_convert c1 i t)) in *.
      rewrite <- H4 in Hlater. destruct (conv_states_safe later c' H3 H1 Hlater) as (I1 & I2 & I3 & I4).
      assert (Hlast : last (c' :: conv_states c' later) c = last (conv_states c' later) c').
      { destruct (conv_states c' later); [reflexivity|]. exact (last_cons_default _ _ c' c). }
      rewrite Hlast, I4, H4. split; [split; assumption|]. auto.
    + rewrite fin_set_invalid by lia. cbn. auto using legs_safe_refl.
    + rewrite fin_set_invalid by lia. cbn. auto using legs_safe_refl.
  - cbn [use_states last chain].
    assert (Hs : leg_states (fst (fin_reset c)) = leg_states c) by (destruct c; reflexivity).
    assert (Hp : legs_par (fst (fin_reset c))).
    { unfold legs_par in *. destruct c; cbn [legs fin_reset lift fst f4_reset f6_reset f4_a f4_b f6_a f6_b f6_c] in *;
        repeat match goal with X : Forall _ (_ :: _) |- _ => apply Forall_cons_iff in X; destruct X end; fa; assumption. }
    split; [|split; [exact (fin_step_ok c OpReset Hok)|split; [exact Hp|destruct c; reflexivity]]].
    split; [|exact I]. unfold legs_safe. rewrite Hs. apply legs_safe_refl.
Qed.

Lemma uses_safe us : forall c, fin_ok c -> legs_par c -> Forall (use_ok (fin_dim c)) us ->
  chain legs_safe c (states_over c us).
Proof.
  induction us as [|u us IH]; intros c Hok Hpar H; [exact I|]. inversion H as [|? ? Hu Hus]; subst.
  destruct (use_safe c u Hok Hpar Hu) as (H1 & H2 & H3 & H4). cbn [states_over].
  apply chain_app; [exact H1|]. apply IH; [exact H2|exact H3|]. now rewrite H4.
Qed.

(** ** Switching times *)
Lemma f2_times c a t ts : snd (f2_set_action c a t) = Ok ts ->
  ts = [t + f2_tau c] \/ ts = [t + f2_il c; t + f2_tau c] /\ f2_il c <> 0.
Proof.
  unfold f2_set_action. destruct (discrete_contains 3 a); [|discriminate].
  unfold f2_pattern. cbn [f2_sw f2_il f2_start f2_tau].
  destruct ((a =? 0)%Z || (f2_sw c =? 0)%Z || (a =? f2_sw c)%Z || req (f2_il c) 0) eqn:E; cbn [snd].
  - intros H. injection H as <-. auto.
  - intros H. injection H as <-. right. split; [reflexivity|]. rewrite !orb_false_iff in E.
    destruct E as [_ E]. now apply req_false in E.
Qed.

Definition leg_times (tau il : R) (l : f2) : Prop := f2_tau l = tau /\ f2_il l = il.
Definition times_par (tau il : R) (c : fin) : Prop :=
  match c with F1 q => f1_tau q = tau | _ => Forall (leg_times tau il) (legs c) end.

Lemma f2_good c a t ts tau il : leg_times tau il c -> 0 <= il < tau -> snd (f2_set_action c a t) = Ok ts ->
  schedule t tau ts.
Proof.
  intros [<- <-] H E. destruct (f2_times _ _ _ _ E) as [-> | [-> Hne]].
  - split; [repeat constructor|]. split; [fa; lra|]. exists []. reflexivity.
  - split; [repeat constructor; lra|]. split; [fa; lra|]. eexists [_]. reflexivity.
Qed.

Lemma merged_good t tau tss : tss <> [] -> Forall (schedule t tau) tss ->
  schedule t tau (sort_set (concat tss)).
Proof.
  intros Hne H.
  assert (Hin : forall x, In x (concat tss) -> t < x <= t + tau).
  { intros x Hx. apply in_concat in Hx. destruct Hx as (l & Hl & Hx). rewrite Forall_forall in H.
    destruct (H l Hl) as (_ & Hf & _). rewrite Forall_forall in Hf. auto. }
  assert (Hend : In (t + tau) (concat tss)).
  { destruct tss as [|l tss]; [contradiction|]. inversion H as [|? ? (_ & _ & pre & E) _]; subst.
    cbn. apply in_or_app. left. apply in_or_app. right. left. reflexivity. }
  split; [apply sort_set_sorted|]. split.
  - rewrite Forall_forall. intros x Hx. rewrite sort_set_in in Hx. auto.
  - apply sorted_last; [apply sort_set_sorted|now apply sort_set_in|].
    intros x Hx. rewrite sort_set_in in Hx. specialize (Hin x Hx). lra.
Qed.

Lemma legs_good t tau il ls : forall bs tss, Forall (leg_times tau il) ls -> 0 <= il < tau ->
  Forall2 (fun l ts' => snd l = Ok ts') (map2 (fun l a => f2_set_action l a t) ls bs) tss ->
  Forall (schedule t tau) tss.
Proof.
  induction ls as [|l ls IH]; intros [|b bs] tss Hp Hil H; cbn [map2] in H; inversion H; subst; constructor.
  - inversion Hp; subst. eapply f2_good; eauto.
  - inversion Hp; subst. eapply IH; eauto.
Qed.

Lemma fin_times_good c a t tau il : times_par tau il c -> 0 <= il < tau -> (0 <= a < fin_n c)%Z ->
  exists ts, snd (fin_set_action c a t) = Ok ts /\ schedule t tau ts.
Proof.
  intros Hp Hil Ha. destruct (fin_set_valid c a t Ha) as (c' & ts & E & _ & _ & _ & Hx).
  rewrite E. cbn [snd]. exists ts. split; [reflexivity|].
  destruct c as [q|q|q|q]; cbn [times_par] in Hp.
  - destruct Hx as [_ ->]. rewrite Hp. split; [repeat constructor|]. split; [fa; lra|]. exists []. reflexivity.
  - cbn [legs] in Hp. inversion Hp; subst. eapply f2_good; eauto.
  - destruct Hx as (tss & H2 & ->). apply merged_good; [|eapply legs_good; eauto].
    cbn [legs sub_action map2] in H2. inversion H2; subst. discriminate.
  - destruct Hx as (tss & H2 & ->). apply merged_good; [|eapply legs_good; eauto].
    cbn [legs sub_action map2] in H2. inversion H2; subst. discriminate.
Qed.

(** Sampling and interlocking time of the parts never change, unless the sampling
    time is set from outside. *)
Lemma f2_set_times tau il c a t : leg_times tau il c -> leg_times tau il (fst (f2_set_action c a t)).
Proof. intros H. unfold f2_set_action. destruct (discrete_contains 3 a); [|exact H]. destruct (f2_pattern _ a). exact H. Qed.
Lemma f2_conv_times tau il c i t : leg_times tau il c -> leg_times tau il (fst (f2_convert c i t)).
Proof. intros H. unfold f2_convert. destruct (f2_next_sw c t); exact H. Qed.
Definition not_tau (o : fop) : Prop := match o with OpTau _ => False | _ => True end.
Ltac split_fa := repeat match goal with X : Forall _ (_ :: _) |- _ => apply Forall_cons_iff in X; destruct X end.
Lemma fin_step_times tau il c o : not_tau o -> times_par tau il c -> times_par tau il (fin_step c o).
Proof.
  intros Hn H. destruct o as [a t|i t|i| |v]; cbn [fin_step]; [| |exact H| |contradiction].
  - destruct (Z_le_dec 0 a) as [Hle|Hgt];
      [destruct (Z_lt_dec a (fin_n c)) as [Hlt|Hge]|].
    + destruct (fin_set_valid c a t (conj Hle Hlt)) as (c' & ts & E & Hl & Hn' & _ & Hx). rewrite E. cbn [fst].
      destruct c as [q|q|q|q]; [destruct Hx as [-> _]; exact H| | |];
        destruct c'; cbn in Hn'; try discriminate; cbn [times_par] in *; rewrite Hl;
        cbn [legs sub_action map2] in *; split_fa; fa; now apply f2_set_times.
    + rewrite fin_set_invalid by lia. exact H.
    + rewrite fin_set_invalid by lia. exact H.
  - destruct c as [c|c|c|c]; cbn [fin_convert lift fst times_par legs] in *.
    + exact H.
    + split_fa. fa. now apply f2_conv_times.
    + split_fa. unfold f4_convert.
      pose proof (f2_conv_times tau il (f4_a c) i t ltac:(assumption)) as Hx.
      destruct (f2_convert (f4_a c) i t) as [x ux]. cbn [fst] in Hx.
      destruct ux as [[|ux [|]]|]; try (fa; assumption).
      destruct i as [|i0 i]; try (fa; assumption).
      pose proof (f2_conv_times tau il (f4_b c) [- i0] t ltac:(assumption)) as Hy.
      destruct (f2_convert (f4_b c) [- i0] t) as [y uy]. fa; assumption.
    + split_fa. unfold f6_convert. destruct i as [|i0 i]; [fa; assumption|].
      pose proof (f2_conv_times tau il (f6_a c) [i0] t ltac:(assumption)) as Hx.
      destruct (f2_convert (f6_a c) [i0] t) as [x ux]. cbn [fst] in Hx.
      destruct (half ux); [|fa; assumption]. destruct i as [|i1 i]; [fa; assumption|].
      pose proof (f2_conv_times tau il (f6_b c) [i1] t ltac:(assumption)) as Hy.
      destruct (f2_convert (f6_b c) [i1] t) as [y uy]. cbn [fst] in Hy.
      destruct (half uy); [|fa; assumption]. destruct i as [|i2 i]; [fa; assumption|].
      pose proof (f2_conv_times tau il (f6_c c) [i2] t ltac:(assumption)) as Hz.
      destruct (f2_convert (f6_c c) [i2] t) as [z uz]. fa; assumption.
  - destruct c; [exact H| | |]; cbn [fin_reset lift fst times_par legs f4_reset f6_reset f4_a f4_b f6_a f6_b f6_c] in *;
      split_fa; fa; assumption.
Qed.
Lemma fin_run_times tau il ops : forall c, Forall not_tau ops -> times_par tau il c -> times_par tau il (fin_run c ops).
Proof.
  induction ops as [|o ops IH]; intros c Hn H; [exact H|]. inversion Hn; subst.
  apply IH; [assumption|]. now apply fin_step_times.
Qed.
Lemma fin_new_times k tau il : times_par tau il (fin_new k tau il).
Proof. destruct k; cbn [fin_new times_par legs f4_new f6_new f4_a f4_b f6_a f6_b f6_c]; fa; try split; reflexivity. Qed.
Lemma fin_new_par k tau il : 0 < il -> 0 <= tau -> legs_par (fin_new k tau il).
Proof. intros. destruct k; unfold legs_par; cbn [fin_new legs f4_new f6_new f4_a f4_b f6_a f6_b f6_c]; fa; split; assumption. Qed.

(** ** Power balance of the finite converters *)
Lemma half_bridge_power sw i : sw_ok sw ->
  (if (sw =? 0)%Z then if rlt i 0 then i else 0 else if (sw =? 1)%Z then i else 0) = ideal_half_bridge sw i * i.
Proof.
  unfold ideal_half_bridge. intros [-> | [-> | ->]]; cbn; [destruct (rltP i 0); lra|lra|lra].
Qed.
Lemma f2_i_sup_val c i0 i : sw_ok (f2_sw c) -> f2_i_sup c (i0 :: i) = Ok (ideal_half_bridge (f2_sw c) i0 * i0).
Proof.
  intros H. rewrite <- (half_bridge_power _ _ H). unfold f2_i_sup. cbn [head_r bind].
  destruct H as [-> | [-> | ->]]; reflexivity.
Qed.

(** ** Continuous converters *)
Lemma clip01 x : 0 <= Rmin (Rmax x 0) 1 <= 1.
Proof. unfold Rmin, Rmax. repeat destruct (Rle_dec _ _); lra. Qed.
Definition cq_ok (c : cq) : Prop := 0 <= cq_act c <= 1.
Definition con_ok (c : con) : Prop :=
  match c with
  | C1 q | C2 q => cq_ok q
  | C4 q => cq_ok (c4_a q) /\ cq_ok (c4_b q)
  | C6 q => cq_ok (c6_a q) /\ cq_ok (c6_b q) /\ cq_ok (c6_c q)
  end.
Lemma cq_new_ok tau il : cq_ok (cq_new tau il).
Proof. unfold cq_ok; cbn; lra. Qed.
Lemma con_new_ok k tau il : con_ok (con_new k tau il).
Proof. destruct k; cbn; repeat split; cbn; lra. Qed.
Lemma cq_set_ok c a t : cq_ok c -> cq_ok (fst (cq_set_action c a t)).
Proof. intros H. destruct a as [|x [|]]; cbn; try exact H. unfold cq_ok. cbn. apply clip01. Qed.
Lemma con_step_ok c o : con_ok c -> con_ok (con_step c o).
Proof.
  intros H. destruct o as [a t| |v]; cbn [con_step].
  - destruct c as [q|q|q|q]; cbn [con_set_action lift fst con_ok] in *.
    + now apply cq_set_ok. + now apply cq_set_ok.
    + destruct a as [|x [|]]; try exact H. cbn. split; apply clip01.
    + destruct a as [|x [|y [|z a]]]; try exact H. cbn. split; [|split]; apply clip01.
  - destruct c; cbn; unfold cq_ok; cbn; repeat split; lra.
  - destruct c; exact H.
Qed.
Lemma con_run_ok ops : forall c, con_ok c -> con_ok (con_run c ops).
Proof. induction ops as [|o ops IH]; intros c H; [exact H|]. apply IH, con_step_ok, H. Qed.
Lemma c1_range c i : 0 <= c1_convert c i <= 1.
Proof. apply clip01. Qed.
Lemma c2_range c i : 0 <= c2_convert c i <= 1.
Proof. apply clip01. Qed.

Lemma con_convert_box c i t u : con_convert c i t = Ok u -> in_box (con_u_low c) (con_u_high c) u.
Proof.
  destruct c as [q|q|q|q]; cbn [con_convert con_u_low con_u_high].
  - destruct i as [|i0 i]; cbn; [discriminate|]. intros E. injection E as <-. pose proof (c1_range q i0).
    split; f2a; lra.
  - destruct i as [|i0 i]; cbn; [discriminate|]. intros E. injection E as <-. pose proof (c2_range q i0).
    split; f2a; lra.
  - destruct i as [|i0 i]; cbn; [discriminate|]. intros E. injection E as <-.
    pose proof (c2_range (c4_a q) i0). pose proof (c2_range (c4_b q) i0).
    split; f2a; lra.
  - destruct i as [|i0 [|i1 [|i2 i]]]; cbn; try discriminate. intros E. injection E as <-.
    pose proof (c2_range (c6_a q) i0). pose proof (c2_range (c6_b q) i1). pose proof (c2_range (c6_c q) i2).
    split; f2a; lra.
Qed.
Lemma interlock_0 c i : cq_il c = 0 -> interlock c i = 0.
Proof. intros H. unfold interlock. rewrite H. ring. Qed.
Lemma c2_no_interlock c i : cq_il c = 0 -> cq_ok c -> c2_convert c i = cq_act c.
Proof.
  intros H [H0 H1]. unfold c2_convert. rewrite interlock_0 by exact H.
  unfold Rmin, Rmax. repeat destruct (Rle_dec _ _); lra.
Qed.
Lemma c2_i_sup_no_interlock c i : cq_il c = 0 -> c2_i_sup c i = cq_act c * i.
Proof. intros H. unfold c2_i_sup. rewrite H. unfold Rdiv. ring. Qed.
Lemma clipped_eq x lo hi : lo <= hi -> Rmin (Rmax x lo) hi = clipped x lo hi.
Proof.
  intros H. unfold clipped. destruct (rltP x lo), (rltP hi x); unfold Rmin, Rmax; repeat destruct (Rle_dec _ _); lra.
Qed.
(** Interlocking times of the parts. *)
Definition con_il (il : R) (c : con) : Prop :=
  match c with
  | C1 q | C2 q => cq_il q = il
  | C4 q => cq_il (c4_a q) = il /\ cq_il (c4_b q) = il
  | C6 q => cq_il (c6_a q) = il /\ cq_il (c6_b q) = il /\ cq_il (c6_c q) = il
  end.
Lemma con_step_il il c o : con_il il c -> con_il il (con_step c o).
Proof.
  intros H. destruct o as [a t| |v]; cbn [con_step].
  - destruct c as [q|q|q|q]; cbn [con_set_action lift fst con_il] in *.
    + destruct a as [|x [|]]; exact H. + destruct a as [|x [|]]; exact H.
    + destruct a as [|x [|]]; exact H.
    + destruct a as [|x [|y [|z a]]]; exact H.
  - destruct c; exact H.
  - destruct c; exact H.
Qed.
Lemma con_run_il il ops : forall c, con_il il c -> con_il il (con_run c ops).
Proof. induction ops as [|o ops IH]; intros c H; [exact H|]. apply IH, con_step_il, H. Qed.
Lemma con_new_il k tau il : con_il il (con_new k tau il).
Proof. destruct k; cbn; auto. Qed.
Lemma con_step_dim c o : con_dim (con_step c o) = con_dim c.
Proof.
  destruct c as [q|q|q|q], o as [a t| |v]; cbn [con_step con_set_action lift fst con_reset con_set_tau con_dim]; auto.
  - destruct a as [|x [|]]; reflexivity.
  - destruct a as [|x [|y [|z a]]]; reflexivity.
Qed.

(** Any property of half bridges kept by their methods is kept by the converters. *)
Lemma legs_inv (P : f2 -> Prop) c o :
  (forall l a t, P l -> P (fst (f2_set_action l a t))) ->
  (forall l i t, P l -> P (fst (f2_convert l i t))) ->
  (forall l, P l -> P (fst (f2_reset l))) ->
  (forall l v, P l -> P (f2_set_tau v l)) ->
  Forall P (legs c) -> Forall P (legs (fin_step c o)).
Proof.
  intros Pset Pconv Preset Ptau H. destruct o as [a t|i t|i| |v]; cbn [fin_step]; [| |exact H| |].
  - destruct (Z_le_dec 0 a) as [Hle|Hgt]; [destruct (Z_lt_dec a (fin_n c)) as [Hlt|Hge]|].
    + destruct (fin_set_valid c a t (conj Hle Hlt)) as (c' & ts & E & Hl & _). rewrite E. cbn [fst]. rewrite Hl.
      destruct c as [q|q|q|q]; cbn [legs sub_action map2] in *; split_fa; fa; now apply Pset.
    + rewrite fin_set_invalid by lia. exact H.
    + rewrite fin_set_invalid by lia. exact H.
  - destruct c as [c|c|c|c]; cbn [fin_convert lift fst legs] in *.
    + exact H.
    + split_fa. fa. now apply Pconv.
    + split_fa. unfold f4_convert.
      pose proof (Pconv (f4_a c) i t ltac:(assumption)) as Hx.
      destruct (f2_convert (f4_a c) i t) as [x ux]. cbn [fst] in Hx.
      destruct ux as [[|ux [|]]|]; try (fa; assumption).
      destruct i as [|i0 i]; try (fa; assumption).
      pose proof (Pconv (f4_b c) [- i0] t ltac:(assumption)) as Hy.
      destruct (f2_convert (f4_b c) [- i0] t) as [y uy]. fa; assumption.
    + split_fa. unfold f6_convert. destruct i as [|i0 i]; [fa; assumption|].
      pose proof (Pconv (f6_a c) [i0] t ltac:(assumption)) as Hx.
      destruct (f2_convert (f6_a c) [i0] t) as [x ux]. cbn [fst] in Hx.
      destruct (half ux); [|fa; assumption]. destruct i as [|i1 i]; [fa; assumption|].
      pose proof (Pconv (f6_b c) [i1] t ltac:(assumption)) as Hy.
      destruct (f2_convert (f6_b c) [i1] t) as [y uy]. cbn [fst] in Hy.
      destruct (half uy); [|fa; assumption]. destruct i as [|i2 i]; [fa; assumption|].
      pose proof (Pconv (f6_c c) [i2] t ltac:(assumption)) as Hz.
      destruct (f2_convert (f6_c c) [i2] t) as [z uz]. fa; assumption.
  - destruct c; [exact H| | |]; cbn [fin_reset lift fst legs f4_reset f6_reset f4_a f4_b f6_a f6_b f6_c] in *;
      split_fa; fa; now apply Preset.
  - destruct c; [exact H| | |]; cbn [fin_set_tau legs f4_set_tau f6_set_tau f4_a f4_b f6_a f6_b f6_c] in *;
      split_fa; fa; try assumption; now apply Ptau.
Qed.
Lemma fin_step_pat c o : pat_set c -> pat_set (fin_step c o).
Proof.
  apply legs_inv.
  - intros l a t H. unfold f2_set_action. destruct (discrete_contains 3 a); [|exact H].
    unfold f2_pattern. destruct (_ || _); discriminate.
  - intros l i t H. unfold f2_convert. destruct (f2_next_sw l t); exact H.
  - intros l H. exact H.
  - intros l v H. exact H.
Qed.
Lemma fin_run_pat ops : forall c, pat_set c -> pat_set (fin_run c ops).
Proof. induction ops as [|o ops IH]; intros c H; [exact H|]. apply IH, fin_step_pat, H. Qed.
Lemma fin_run_legs (P : f2 -> Prop) ops :
  (forall l a t, P l -> P (fst (f2_set_action l a t))) ->
  (forall l i t, P l -> P (fst (f2_convert l i t))) ->
  (forall l, P l -> P (fst (f2_reset l))) ->
  (forall l v, P l -> P (f2_set_tau v l)) ->
  forall c, Forall P (legs c) -> Forall P (legs (fin_run c ops)).
Proof.
  intros H1 H2 H3 H4. induction ops as [|o ops IH]; intros c H; [exact H|].
  apply IH. now apply legs_inv.
Qed.

(** The kind of a continuous converter never changes. *)
Definition same_kind (c d : con) : Prop :=
  match c, d with C1 _, C1 _ | C2 _, C2 _ | C4 _, C4 _ | C6 _, C6 _ => True | _, _ => False end.
Lemma con_step_kind c o : same_kind c (con_step c o).
Proof.
  destruct c as [q|q|q|q], o as [a t| |v]; cbn; auto.
  - destruct a as [|x [|]]; exact I.
  - destruct a as [|x [|y [|z a]]]; exact I.
Qed.
Lemma con_run_kind ops : forall c, same_kind c (con_run c ops).
Proof.
  induction ops as [|o ops IH]; intros c; [destruct c; exact I|].
  pose proof (con_step_kind c o) as H. specialize (IH (con_step c o)). change (con_run c (o :: ops)) with (con_run (con_step c o) ops).
  destruct c, (con_step _ o), (con_run _ ops); cbn in *; tauto.
Qed.
Lemma np_sign_pos x : 0 < x -> np_sign x = 1.
Proof. intros H. unfold np_sign. destruct (rltP x 0); [lra|]. destruct (rltP 0 x); [reflexivity|lra]. Qed.
Lemma np_sign_neg x : x < 0 -> np_sign x = -1.
Proof. intros H. unfold np_sign. destruct (rltP x 0); [reflexivity|lra]. Qed.
