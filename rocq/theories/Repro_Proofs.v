(** Proofs for [Repro_Props]: two runs of one physical system. *)
From Verif Require Import PyBaseFacts Conv_Model Conv_Spec Conv_Proofs Conv_Proofs2 Solver_Model Supply_Model Transform_Model Motor_Model Loads_Model PhysSys_Model PhysSys_Proofs2
  Scipy_Model Scipy_Spec Wrap_Model Wrap_Proofs3 Preset_Model Full_Model Full_Spec Repro_Spec.

(** ** Converters *)
(** [Inv]: what every history keeps; [R0]: equal up to what the next action overwrites;
    [R1]: equal up to what only the supply current depends on. *)
Record conv_forgets {C A} (cv : conv_if C A) (valid : A -> Prop) (Inv : C -> Prop) (R0 R1 : C -> C -> Prop) : Prop := {
  cf_set_inv : forall c a t, Inv c -> Inv (fst (cv_set_action cv c a t));
  cf_conv_inv : forall c i t, Inv c -> Inv (fst (cv_convert cv c i t));
  cf_reset_inv : forall c, Inv c -> Inv (fst (cv_reset cv c));
  cf_reset : forall c c', Inv c -> Inv c' -> snd (cv_reset cv c) = snd (cv_reset cv c') /\ R0 (fst (cv_reset cv c)) (fst (cv_reset cv c'));
  cf_set : forall c c' a t, R0 c c' -> valid a -> snd (cv_set_action cv c a t) = snd (cv_set_action cv c' a t) /\
    forall ts, snd (cv_set_action cv c a t) = Ok ts -> R1 (fst (cv_set_action cv c a t)) (fst (cv_set_action cv c' a t));
  cf_conv : forall c c' i t, R1 c c' -> snd (cv_convert cv c i t) = snd (cv_convert cv c' i t) /\ R1 (fst (cv_convert cv c i t)) (fst (cv_convert cv c' i t));
  cf_weak : forall c c', R1 c c' -> R0 c c' }.
Lemma adapt_forgets {C A} (read : action -> option A) (cv : conv_if C A) valid Inv R0 R1 : conv_forgets cv valid Inv R0 R1 ->
  conv_forgets (adapt read cv) (fun a => exists x, read a = Some x /\ valid x) Inv R0 R1.
Proof.
  intros [H1 H2 H3 H4 H5 H6 H7]. constructor; cbn [adapt cv_set_action cv_convert cv_reset]; auto.
  - intros c a t Hc. destruct (read a); auto.
  - intros c c' a t Hc (x & E & Hx). rewrite E. auto.
Qed.

(** Half bridges without interlocking time *)
Definition armed (c c' : f2) : Prop := f2_start c = f2_start c' /\ f2_pat c = f2_pat c'.
Lemma f2_set_same T c c' a t : leg_times T 0 c -> leg_times T 0 c' -> snd (f2_set_action c a t) = snd (f2_set_action c' a t) /\
  forall ts, snd (f2_set_action c a t) = Ok ts -> armed (fst (f2_set_action c a t)) (fst (f2_set_action c' a t)).
Proof.
  intros [H1 H2] [K1 K2]. unfold f2_set_action. destruct (discrete_contains 3 a); [|split; [reflexivity|discriminate]]. unfold f2_pattern. cbn [f2_il f2_start f2_tau f2_sw].
  rewrite H1, H2, K1, K2. destruct (reqP 0 0) as [_|Hn]; [|lra]. rewrite !orb_true_r. cbn [fst snd]. split; [reflexivity|]. intros _ _. split; reflexivity.
Qed.
Lemma f2_conv_same T c c' i t : leg_times T 0 c -> leg_times T 0 c' -> armed c c' -> snd (f2_convert c i t) = snd (f2_convert c' i t) /\
  armed (fst (f2_convert c i t)) (fst (f2_convert c' i t)).
Proof.
  intros [H1 H2] [K1 K2] [A1 A2]. unfold f2_convert, f2_next_sw. rewrite H1, H2, K1, K2, A1, A2. destruct (f2_pat c') as [|p0 l] eqn:Ep; [split; [reflexivity|split; cbn; congruence]|].
  destruct (rlt _ _); cbn [fst snd]; (split; [reflexivity|]); split; cbn; congruence.
Qed.

(** Elementary finite converters *)
Definition finInv (T : R) (n : Z) (c : fin) : Prop := fin_n c = n /\ times_par T 0 c.
Definition finR0 (T : R) (c c' : fin) : Prop := fin_n c = fin_n c' /\ times_par T 0 c /\ times_par T 0 c'.
Definition finR1 (T : R) (c c' : fin) : Prop :=
  finR0 T c c' /\ Forall2 armed (legs c) (legs c') /\ match c, c' with F1 a, F1 b => f1_cur a = f1_cur b | _, _ => True end.
Ltac fi H := repeat match type of H with Forall _ (_ :: _) => let X := fresh "L" in let Y := fresh "Y" in pose proof (Forall_inv H) as X; pose proof (Forall_inv_tail H) as Y; clear H; rename Y into H end.
Lemma fin_set_kind c a t : fin_n (fst (fin_set_action c a t)) = fin_n c.
Proof. destruct c; reflexivity. Qed.
Lemma fin_conv_kind c i t : fin_n (fst (fin_convert c i t)) = fin_n c.
Proof. destruct c; reflexivity. Qed.
Lemma fin_reset_kind c : fin_n (fst (fin_reset c)) = fin_n c.
Proof. destruct c; reflexivity. Qed.
Lemma fin_set_same T c c' a t : finR0 T c c' -> snd (fin_set_action c a t) = snd (fin_set_action c' a t) /\
  forall ts, snd (fin_set_action c a t) = Ok ts -> finR1 T (fst (fin_set_action c a t)) (fst (fin_set_action c' a t)).
Proof.
  intros (Hk & H & H'). assert (G : snd (fin_set_action c a t) = snd (fin_set_action c' a t) /\ forall ts, snd (fin_set_action c a t) = Ok ts ->
    Forall2 armed (legs (fst (fin_set_action c a t))) (legs (fst (fin_set_action c' a t))) /\
    match fst (fin_set_action c a t), fst (fin_set_action c' a t) with F1 x, F1 y => f1_cur x = f1_cur y | _, _ => True end).
  { destruct c as [c|c|c|c], c' as [c'|c'|c'|c']; try discriminate Hk; cbn [times_par legs fin_set_action lift fst snd] in *.
    - unfold f1_set_action. destruct (discrete_contains 2 a); cbn [fst snd f1_cur]; [|split; [reflexivity|discriminate]]. rewrite H, H'. split; [reflexivity|]. intros _ _. split; [constructor|reflexivity].
    - fi H. fi H'. destruct (f2_set_same T c c' a t L L0) as [E1 E2]. split; [exact E1|]. intros ts Hts. split; [|exact I]. constructor; [eapply E2; eassumption|constructor].
    - fi H. fi H'. unfold f4_set_action. destruct (discrete_contains 4 a); [|split; [reflexivity|discriminate]].
      destruct (f2_set_same T (f4_a c) (f4_a c') (f4_action0 a) t L L1) as [E1 E2]. destruct (f2_set_same T (f4_b c) (f4_b c') (f4_action1 a) t L0 L2) as [E3 E4].
      destruct (f2_set_action (f4_a c) (f4_action0 a) t) as [x rx], (f2_set_action (f4_a c') (f4_action0 a) t) as [x' rx']. cbn [fst snd] in *. subst rx'.
      destruct rx as [tx|e]; [|split; [reflexivity|discriminate]].
      destruct (f2_set_action (f4_b c) (f4_action1 a) t) as [y ry], (f2_set_action (f4_b c') (f4_action1 a) t) as [y' ry']. cbn [fst snd f4_a f4_b] in *. subst ry'.
      destruct ry as [ty|e]; cbn [bind]; [|split; [reflexivity|discriminate]]. split; [reflexivity|]. intros _ _. split; [|exact I]. constructor; [eapply E2; reflexivity|constructor; [eapply E4; reflexivity|constructor]].
    - fi H. fi H'. unfold f6_set_action. destruct (discrete_contains 8 a); [|split; [reflexivity|discriminate]].
      destruct (f2_set_same T (f6_a c) (f6_a c') (f6_sub a 0) t L L2) as [E1 E2]. destruct (f2_set_same T (f6_b c) (f6_b c') (f6_sub a 1) t L0 L3) as [E3 E4].
      destruct (f2_set_same T (f6_c c) (f6_c c') (f6_sub a 2) t L1 L4) as [E5 E6].
      destruct (f2_set_action (f6_a c) (f6_sub a 0) t) as [x rx], (f2_set_action (f6_a c') (f6_sub a 0) t) as [x' rx'],
        (f2_set_action (f6_b c) (f6_sub a 1) t) as [y ry], (f2_set_action (f6_b c') (f6_sub a 1) t) as [y' ry'],
        (f2_set_action (f6_c c) (f6_sub a 2) t) as [z rz], (f2_set_action (f6_c c') (f6_sub a 2) t) as [z' rz']. cbn [fst snd f6_a f6_b f6_c] in *. subst rx' ry' rz'.
      split; [reflexivity|]. intros ts Hts. split; [|exact I]. destruct rx as [tx|]; [|discriminate Hts]. destruct ry as [ty|]; [|discriminate Hts]. destruct rz as [tz|]; [|discriminate Hts].
      constructor; [eapply E2; reflexivity|constructor; [eapply E4; reflexivity|constructor; [eapply E6; reflexivity|constructor]]]. }
  destruct G as [G1 G2]. split; [exact G1|]. intros ts Hts. destruct (G2 ts Hts) as [G3 G4]. split; [|split; assumption]. split; [rewrite !fin_set_kind; exact Hk|].
  split; [exact (fin_step_times T 0 c (OpSet a t) I H)|exact (fin_step_times T 0 c' (OpSet a t) I H')].
Qed.
Lemma fin_conv_same T c c' i t : finR1 T c c' -> snd (fin_convert c i t) = snd (fin_convert c' i t) /\ finR1 T (fst (fin_convert c i t)) (fst (fin_convert c' i t)).
Proof.
  intros ((Hk & H & H') & Ha & Hc). assert (G : snd (fin_convert c i t) = snd (fin_convert c' i t) /\
    Forall2 armed (legs (fst (fin_convert c i t))) (legs (fst (fin_convert c' i t))) /\
    match fst (fin_convert c i t), fst (fin_convert c' i t) with F1 x, F1 y => f1_cur x = f1_cur y | _, _ => True end).
  { destruct c as [c|c|c|c], c' as [c'|c'|c'|c']; try discriminate Hk; cbn [times_par legs fin_convert lift fst snd] in *.
    - unfold f1_convert. cbn [fst snd]. rewrite Hc. split; [reflexivity|]. split; [constructor|reflexivity].
    - fi H. fi H'. inversion Ha as [|? ? ? ? A1 _]; subst. destruct (f2_conv_same T c c' i t L L0 A1) as [E1 E2]. split; [exact E1|]. split; [|exact I]. constructor; [exact E2|constructor].
    - fi H. fi H'. inversion Ha as [|? ? ? ? A1 Ha1]; subst. inversion Ha1 as [|? ? ? ? A2 _]; subst. unfold f4_convert.
      destruct (f2_conv_same T (f4_a c) (f4_a c') i t L L1 A1) as [E1 E2].
      destruct (f2_convert (f4_a c) i t) as [x rx], (f2_convert (f4_a c') i t) as [x' rx']. cbn [fst snd] in *. subst rx'.
      destruct rx as [[|ux [|? ?]]|e]; try (cbn [fst snd f4_a f4_b]; split; [reflexivity|]; split; [|exact I]; constructor; [exact E2|constructor; [exact A2|constructor]]).
      destruct i as [|i0 i]; [cbn [fst snd f4_a f4_b]; split; [reflexivity|]; split; [|exact I]; constructor; [exact E2|constructor; [exact A2|constructor]]|].
      destruct (f2_conv_same T (f4_b c) (f4_b c') [- i0] t L0 L2 A2) as [E3 E4].
      destruct (f2_convert (f4_b c) [- i0] t) as [y ry], (f2_convert (f4_b c') [- i0] t) as [y' ry']. cbn [fst snd f4_a f4_b] in *. subst ry'.
      split; [reflexivity|]. split; [|exact I]. constructor; [exact E2|constructor; [exact E4|constructor]].
    - fi H. fi H'. inversion Ha as [|? ? ? ? A1 Ha1]; subst. inversion Ha1 as [|? ? ? ? A2 Ha2]; subst. inversion Ha2 as [|? ? ? ? A3 _]; subst. unfold f6_convert.
      destruct i as [|i0 i]; [cbn [fst snd]; split; [reflexivity|]; split; [exact Ha|exact I]|].
      destruct (f2_conv_same T (f6_a c) (f6_a c') [i0] t L L2 A1) as [E1 E2].
      destruct (f2_convert (f6_a c) [i0] t) as [x rx], (f2_convert (f6_a c') [i0] t) as [x' rx']. cbn [fst snd] in *. subst rx'.
      destruct (half rx) as [vx|e]; [|cbn [fst snd f6_a f6_b f6_c]; split; [reflexivity|]; split; [|exact I]; constructor; [exact E2|exact Ha1]].
      destruct i as [|i1 i]; [cbn [fst snd f6_a f6_b f6_c]; split; [reflexivity|]; split; [|exact I]; constructor; [exact E2|exact Ha1]|].
      destruct (f2_conv_same T (f6_b c) (f6_b c') [i1] t L0 L3 A2) as [E3 E4].
      destruct (f2_convert (f6_b c) [i1] t) as [y ry], (f2_convert (f6_b c') [i1] t) as [y' ry']. cbn [fst snd] in *. subst ry'.
      destruct (half ry) as [vy|e]; [|cbn [fst snd f6_a f6_b f6_c]; split; [reflexivity|]; split; [|exact I]; constructor; [exact E2|constructor; [exact E4|exact Ha2]]].
      destruct i as [|i2 i]; [cbn [fst snd f6_a f6_b f6_c]; split; [reflexivity|]; split; [|exact I]; constructor; [exact E2|constructor; [exact E4|exact Ha2]]|].
      destruct (f2_conv_same T (f6_c c) (f6_c c') [i2] t L1 L4 A3) as [E5 E6].
      destruct (f2_convert (f6_c c) [i2] t) as [z rz], (f2_convert (f6_c c') [i2] t) as [z' rz']. cbn [fst snd f6_a f6_b f6_c] in *. subst rz'.
      split; [reflexivity|]. split; [|exact I]. constructor; [exact E2|constructor; [exact E4|constructor; [exact E6|constructor]]]. }
  destruct G as (G1 & G2 & G3). split; [exact G1|]. split; [|split; assumption]. split; [rewrite !fin_conv_kind; exact Hk|].
  split; [exact (fin_step_times T 0 c (OpConvert i t) I H)|exact (fin_step_times T 0 c' (OpConvert i t) I H')].
Qed.
Lemma fin_reset_same T n c c' : finInv T n c -> finInv T n c' -> snd (fin_reset c) = snd (fin_reset c') /\ finR0 T (fst (fin_reset c)) (fst (fin_reset c')).
Proof.
  intros (Hk & H) (Hk' & H'). split; [destruct c, c'; cbn in Hk, Hk'; try congruence; reflexivity|]. split; [rewrite !fin_reset_kind; congruence|].
  split; [exact (fin_step_times T 0 c OpReset I H)|exact (fin_step_times T 0 c' OpReset I H')].
Qed.
Lemma fin_forgets T n : conv_forgets fin_if (fun _ => True) (finInv T n) (finR0 T) (finR1 T).
Proof.
  constructor; cbn [fin_if cv_set_action cv_convert cv_reset].
  - intros c a t [Hk H]. split; [now rewrite fin_set_kind|]. exact (fin_step_times T 0 c (OpSet a t) I H).
  - intros c i t [Hk H]. split; [now rewrite fin_conv_kind|]. exact (fin_step_times T 0 c (OpConvert i t) I H).
  - intros c [Hk H]. split; [now rewrite fin_reset_kind|]. exact (fin_step_times T 0 c OpReset I H).
  - intros c c'. apply fin_reset_same.
  - intros c c' a t H _. now apply fin_set_same.
  - intros c c' i t. apply fin_conv_same.
  - intros c c' H. apply H.
Qed.

(** Several finite converters *)
Lemma fin_dim_kind c c' : fin_n c = fin_n c' -> fin_dim c = fin_dim c'.
Proof. destruct c, c'; cbn; intros H; try discriminate H; reflexivity. Qed.
Definition fmInv (T : R) (ns : list Z) (cs : list fin) : Prop := Forall2 (finInv T) ns cs.
Definition fmR (P : fin -> fin -> Prop) (ns : list Z) (cs cs' : list fin) : Prop := length cs = length ns /\ Forall2 P cs cs'.
Lemma fm_forgets T ns : conv_forgets multi_if (fun a => length a = length ns) (fmInv T ns) (fmR (finR0 T) ns) (fmR (finR1 T) ns).
Proof.
  constructor; cbn [multi_if cv_set_action cv_convert cv_reset].
  - intros cs a t H. unfold fm_set_action. assert (K : fmInv T ns (fst (fm_set_all cs a t))).
    { revert a. induction H as [|n c ns cs H1 H2 IH]; intros a; [constructor|]. cbn [fm_set_all]. destruct a as [|a0 a]; [constructor; assumption|].
      pose proof (cf_set_inv _ _ _ _ _ (fin_forgets T n) c a0 t H1) as K. cbn [fin_if cv_set_action] in K. destruct (fin_set_action c a0 t) as [c1 [ts|e]]; cbn [fst] in K; [|constructor; assumption].
      specialize (IH a). destruct (fm_set_all cs a t) as [cs1 r]. cbn [fst] in *. constructor; assumption. }
    destruct (fm_set_all cs a t). exact K.
  - intros cs i t H. revert i. induction H as [|n c ns cs H1 H2 IH]; intros i; [constructor|]. cbn [fm_convert].
    pose proof (cf_conv_inv _ _ _ _ _ (fin_forgets T n) c (firstn (fin_dim c) i) t H1) as K. cbn [fin_if cv_convert] in K.
    destruct (fin_convert c (firstn (fin_dim c) i) t) as [c1 [u|e]]; cbn [fst] in K; [|constructor; assumption].
    specialize (IH (skipn (fin_dim c) i)). destruct (fm_convert cs (skipn (fin_dim c) i) t) as [cs1 r]. cbn [fst] in *. constructor; assumption.
  - intros cs H. induction H as [|n c ns cs H1 H2 IH]; [constructor|]. cbn [fm_reset]. pose proof (cf_reset_inv _ _ _ _ _ (fin_forgets T n) c H1) as K. cbn [fin_if cv_reset] in K.
    destruct (fin_reset c) as [c1 u], (fm_reset cs) as [cs1 us]. cbn [fst] in *. constructor; assumption.
  - assert (G : forall ns cs cs', fmInv T ns cs -> fmInv T ns cs' -> snd (fm_reset cs) = snd (fm_reset cs') /\ fmR (finR0 T) ns (fst (fm_reset cs)) (fst (fm_reset cs'))).
    { clear ns. intros ns cs cs' H. revert cs'. induction H as [|n c ns cs H1 H2 IH]; intros cs' H'; inversion H' as [|? c' ? cs1' H1' H2']; subst; [split; [reflexivity|split; [reflexivity|constructor]]|]. cbn [fm_reset].
      destruct (fin_reset_same T n c c' H1 H1') as [E1 E2]. destruct (IH cs1' H2') as [E3 [E4 E5]].
      destruct (fin_reset c) as [x u], (fin_reset c') as [x' u'], (fm_reset cs) as [y us], (fm_reset cs1') as [y' us']. cbn [fst snd] in *. subst. split; [reflexivity|].
      split; [cbn [length]; congruence|]. constructor; assumption. }
    apply G.
  - intros cs cs' a t [HL H] Ha. unfold fm_set_action.
    assert (G : snd (fm_set_all cs a t) = snd (fm_set_all cs' a t) /\ length (fst (fm_set_all cs a t)) = length cs /\
      forall ts, snd (fm_set_all cs a t) = Ok ts -> Forall2 (finR1 T) (fst (fm_set_all cs a t)) (fst (fm_set_all cs' a t))).
    { rewrite <- HL in Ha. clear HL. revert a Ha. induction H as [|c c' cs cs' H1 H2 IH]; intros a Ha; [split; [reflexivity|]; split; [reflexivity|]; intros; constructor|]. cbn [fm_set_all].
      destruct a as [|a0 a]; [discriminate Ha|]. cbn [length] in Ha. injection Ha as Ha.
      destruct (fin_set_same T c c' a0 t H1) as [E1 E2]. destruct (fin_set_action c a0 t) as [x rx], (fin_set_action c' a0 t) as [x' rx']. cbn [fst snd] in *. subst rx'.
      destruct rx as [tx|e]; [|split; [reflexivity|]; split; [reflexivity|discriminate]]. destruct (IH a Ha) as (E3 & E4 & E5).
      destruct (fm_set_all cs a t) as [y ry], (fm_set_all cs' a t) as [y' ry']. cbn [fst snd] in *. subst ry'. split; [reflexivity|]. split; [cbn [length]; congruence|]. intros ts Hts.
      destruct ry as [ty|]; [|discriminate Hts]. constructor; [eapply E2; reflexivity|eapply E5; reflexivity]. }
    destruct G as (G1 & G2 & G3). destruct (fm_set_all cs a t) as [y ry], (fm_set_all cs' a t) as [y' ry']. cbn [fst snd] in *. subst ry'. split; [reflexivity|]. intros ts Hts.
    destruct ry as [ty|]; [|discriminate Hts]. split; [congruence|]. eapply G3; reflexivity.
  - intros cs cs' i t [HL H].
    assert (G : snd (fm_convert cs i t) = snd (fm_convert cs' i t) /\ length (fst (fm_convert cs i t)) = length cs /\ Forall2 (finR1 T) (fst (fm_convert cs i t)) (fst (fm_convert cs' i t))).
    { clear HL. revert i. induction H as [|c c' cs cs' H1 H2 IH]; intros i; [split; [reflexivity|]; split; [reflexivity|constructor]|]. cbn [fm_convert].
      rewrite <- (fin_dim_kind c c' (proj1 (proj1 H1))). destruct (fin_conv_same T c c' (firstn (fin_dim c) i) t H1) as [E1 E2].
      destruct (fin_convert c (firstn (fin_dim c) i) t) as [x rx], (fin_convert c' (firstn (fin_dim c) i) t) as [x' rx']. cbn [fst snd] in *. subst rx'.
      destruct rx as [ux|e]; [|split; [reflexivity|]; split; [reflexivity|]; constructor; assumption]. destruct (IH (skipn (fin_dim c) i)) as (E3 & E4 & E5).
      destruct (fm_convert cs (skipn (fin_dim c) i) t) as [y ry], (fm_convert cs' (skipn (fin_dim c) i) t) as [y' ry']. cbn [fst snd] in *. subst ry'. split; [reflexivity|].
      split; [cbn [length]; congruence|]. constructor; assumption. }
    destruct G as (G1 & G2 & G3). split; [exact G1|]. split; [congruence|exact G3].
  - intros cs cs' [HL H]. split; [exact HL|]. clear HL. induction H as [|x y l l' Hxy _ IH]; constructor; [apply Hxy|exact IH].
Qed.

(** Continuous converters: a reset leads to one and the same state. *)
Definition conInv (c0 c : con) : Prop := con_reset c = con_reset c0.
Lemma con_set_reset c a t : con_reset (fst (con_set_action c a t)) = con_reset c.
Proof.
  assert (Q : forall q a t, cq_reset (fst (cq_set_action q a t)) = cq_reset q) by (intros q [|x [|y l]] t'; reflexivity).
  destruct c as [q|q|q|q]; cbn [con_set_action].
  - cbn [lift fst con_reset]. now rewrite Q.
  - cbn [lift fst con_reset]. now rewrite Q.
  - destruct a as [|x [|y l]]; reflexivity.
  - destruct a as [|x [|y [|z l]]]; reflexivity.
Qed.
Lemma con_reset_reset c : con_reset (fst (con_reset c)) = con_reset c.
Proof. destruct c; reflexivity. Qed.
Lemma con_forgets c0 : conv_forgets con_if (fun _ => True) (conInv c0) eq eq.
Proof.
  unfold conInv. constructor; cbn [con_if cv_set_action cv_convert cv_reset fst]; auto.
  - intros c a t H. now rewrite con_set_reset.
  - intros c H. now rewrite con_reset_reset.
  - intros c c' H H'. rewrite H, H'. auto.
  - intros c c' a t -> _. auto.
  - intros c c' i t ->. auto.
Qed.
Definition cmInv (cs0 cs : list con) : Prop := Forall2 conInv cs0 cs.
Lemma cm_forgets cs0 : conv_forgets cmulti_if (fun _ => True) (cmInv cs0) eq eq.
Proof.
  constructor; cbn [cmulti_if cv_set_action cv_convert cv_reset fst]; auto.
  - intros cs a t H. unfold cm_set_action. assert (K : cmInv cs0 (fst (cm_set_all cs a t))).
    { revert a. induction H as [|c0 c cs0 cs H1 H2 IH]; intros a; [constructor|]. cbn [cm_set_all].
      assert (K : conInv c0 (fst (con_set_action c (firstn (con_dim c) a) t))) by (unfold conInv; rewrite con_set_reset; exact H1).
      destruct (con_set_action c (firstn (con_dim c) a) t) as [c1 [ts|e]]; cbn [fst] in K; [|constructor; assumption].
      specialize (IH (skipn (con_dim c) a)). destruct (cm_set_all cs (skipn (con_dim c) a) t) as [cs1 r]. cbn [fst] in *. constructor; assumption. }
    destruct (cm_set_all cs a t). exact K.
  - intros cs H. induction H as [|c0 c cs0 cs H1 H2 IH]; [constructor|]. cbn [cm_reset]. assert (K : conInv c0 (fst (con_reset c))) by (unfold conInv; rewrite con_reset_reset; exact H1).
    destruct (con_reset c) as [c1 u], (cm_reset cs) as [cs1 us]. cbn [fst] in *. constructor; assumption.
  - intros cs cs' H H'. assert (G : cm_reset cs = cm_reset cs'); [|rewrite G; auto].
    revert cs' H'. induction H as [|c0 c cs0 cs H1 H2 IH]; intros cs' H'; inversion H' as [|? c' ? cs1' H1' H2']; subst; [reflexivity|]. cbn [cm_reset]. rewrite H1, H1', (IH cs1' H2'). reflexivity.
  - intros c c' a t -> _. auto.
  - intros c c' i t ->. auto.
Qed.

(** ** Physical systems *)
Section System.
Context {C A U V : Type} (cv : conv_if C A) (valid : A -> Prop) (InvC : C -> Prop) (R0 R1 : C -> C -> Prop) (HC : conv_forgets cv valid InvC R0 R1).
Context (us : R) (s : any_solver) (f : rhs U) (HS : solver_forgets s).
Notation so := (an_if s U).
Let e0 := so_equation so f (an_jacobian s U) (an_new s U).
Context (tau : R) (view : list R -> res V) (cur : V -> list R) (volt volt_last : V -> list R -> res U) (act : V -> A -> res A) (out : V -> interval U -> list R -> res (list R)) (limits : list lim)
  (obs : list R -> list R -> list R -> list R -> res (list R)) (PS : list R -> Prop).
Context (Hact : forall v a a', valid a -> act v a = Ok a' -> valid a').
Context (Hout : forall v iv st r, PS st -> out v iv st = Ok r -> PS r) (Hsame : forall v iv st st' r r', PS st -> PS st' -> out v iv st = Ok r -> out v iv st' = Ok r' -> r = r').
Definition used (e : an_state s U) : Prop := exists h, Forall keeps_eq h /\ e = s_run so h e0.
Definition same (e e' : an_state s U) : Prop :=
  exists h h' y t l, Forall keeps_eq h /\ Forall keeps_eq h' /\ e = advances so l (fst (so_initial so y t (s_run so h e0))) /\ e' = advances so l (fst (so_initial so y t (s_run so h' e0))).
Lemma used_more e (o : sop U (an_jac s U)) : used e -> keeps_eq o -> used (s_step so o e).
Proof.
  intros (h & Hh & ->) Ho. exists (h ++ [o]). split; [apply Forall_app; split; [exact Hh|constructor; [exact Ho|constructor]]|]. unfold s_run. rewrite fold_left_app. reflexivity.
Qed.
Lemma used_advance e p t : used e -> used (fst (advance_solver so p t e)).
Proof.
  intros H. unfold advance_solver. pose proof (used_more e (SPar p) H I) as H1. cbn [s_step] in H1. destruct (so_params so p e) as [e1 [x|er]]; cbn [fst] in *; [|exact H1].
  exact (used_more e1 (SInt t) H1 I).
Qed.
Lemma same_advance e e' p t : same e e' -> snd (advance_solver so p t e) = snd (advance_solver so p t e') /\ same (fst (advance_solver so p t e)) (fst (advance_solver so p t e')).
Proof.
  intros (h & h' & y & t0 & l & H1 & H2 & -> & ->). split; [exact (proj2 (proj2 (HS U f h h' y t0 l H1 H2)) p t)|].
  exists h, h', y, t0, (l ++ [(p, t)]). split; [exact H1|]. split; [exact H2|]. unfold advances. rewrite !fold_left_app. split; reflexivity.
Qed.
Lemma same_read e e' : same e e' -> so_t so e = so_t so e' /\ so_y so e = so_y so e'.
Proof. intros (h & h' & y & t0 & l & H1 & H2 & -> & ->). destruct (HS U f h h' y t0 l H1 H2) as (K1 & K2 & _). auto. Qed.
Lemma same_initial e e' y t : used e -> used e' -> same (fst (so_initial so y t e)) (fst (so_initial so y t e')).
Proof. intros (h & H1 & ->) (h' & H2 & ->). exists h, h', y, t, []. auto. Qed.

Notation gsys := (gsys C ideal (an_state s U)).
Definition ginv (x : gsys) : Prop := InvC (gs_c x) /\ gs_s x = ideal_new us /\ used (gs_e x) /\ PS (gs_state x).
(** [Rc]: how the converters are related *)
Definition grel (Rc : C -> C -> Prop) (x x' : gsys) : Prop :=
  ginv x /\ ginv x' /\ Rc (gs_c x) (gs_c x') /\ same (gs_e x) (gs_e x') /\ gs_t x = gs_t x' /\ gs_k x = gs_k x'.

Lemma interval_inv vv i x t x1 iv : ginv x -> g_interval cv ideal_if so vv i x t = (x1, Ok iv) -> ginv x1.
Proof.
  intros (H1 & H2 & H3 & H4) E. unfold g_interval in E. destruct (cv_i_sup cv (gs_c x) i) as [isup|]; [|discriminate E]. cbn [ideal_if sp_get bind] in E.
  destruct (so_t so (gs_e x)) as [now|]; cbn [bind] in E; [|discriminate E]. cbn [g_with_s gs_c] in E.
  pose proof (cf_conv_inv _ _ _ _ _ HC (gs_c x) i now H1) as K. destruct (cv_convert cv (gs_c x) i now) as [c' [u|]]; [|discriminate E]. cbn [fst] in K.
  destruct (vv (scale_voltages u (ideal_get (gs_s x) (gs_t x) isup))) as [p|]; [|discriminate E]. cbn [g_with_s g_with_c gs_e] in E.
  pose proof (used_advance (gs_e x) p t H3) as K2. destruct (advance_solver so p t (gs_e x)) as [e' [y|]]; [|discriminate E]. cbn [bind fst] in *. injection E as <- _.
  split; [exact K|]. split; [exact H2|]. split; [exact K2|exact H4].
Qed.
Lemma interval_same vv i x x' t y y' iv iv' : grel R1 x x' -> g_interval cv ideal_if so vv i x t = (y, Ok iv) -> g_interval cv ideal_if so vv i x' t = (y', Ok iv') ->
  iv = iv' /\ grel R1 y y'.
Proof.
  intros (Hi & Hi' & Rc & Re & Rt & Rk) E E'. pose proof (interval_inv _ _ _ _ _ _ Hi E) as J. pose proof (interval_inv _ _ _ _ _ _ Hi' E') as J'.
  unfold g_interval in E, E'. destruct (cv_i_sup cv (gs_c x) i) as [is1|]; [|discriminate E]. destruct (cv_i_sup cv (gs_c x') i) as [is2|]; [|discriminate E']. cbn [ideal_if sp_get bind] in E, E'.
  destruct Hi as (I1 & I2 & I3 & I4), Hi' as (I1' & I2' & I3' & I4'). destruct (same_read _ _ Re) as [Et _]. rewrite <- Et in E'.
  destruct (so_t so (gs_e x)) as [now|]; cbn [bind] in E, E'; [|discriminate E]. cbn [g_with_s gs_c] in E, E'. unfold ideal_get in E, E'. rewrite I2 in E. rewrite I2' in E'.
  destruct (cf_conv _ _ _ _ _ HC (gs_c x) (gs_c x') i now Rc) as [Ec Rc1]. destruct (cv_convert cv (gs_c x) i now) as [c1 u], (cv_convert cv (gs_c x') i now) as [c1' u']. cbn [fst snd] in *. subst u'.
  destruct u as [u|]; [|discriminate E]. cbn [id_u ideal_new] in E, E'. destruct (vv (scale_voltages u [us])) as [p|]; [|discriminate E]. cbn [g_with_s g_with_c gs_e] in E, E'.
  destruct (same_advance (gs_e x) (gs_e x') p t Re) as [Ea Re1]. destruct (advance_solver so p t (gs_e x)) as [e1 r], (advance_solver so p t (gs_e x')) as [e1' r']. cbn [fst snd] in *. subst r'.
  destruct r as [r|]; cbn [bind] in E, E'; [|discriminate E]. injection E as <- <-. injection E' as <- <-. split; [reflexivity|]. split; [exact J|]. split; [exact J'|]. split; [exact Rc1|].
  split; [exact Re1|]. split; assumption.
Qed.
Lemma intervals_inv ts : forall v x x1 w, ginv x -> g_intervals cv ideal_if so view cur volt v x ts = (x1, Ok w) -> ginv x1.
Proof.
  induction ts as [|t ts IH]; intros v x x1 w Hx E; cbn [g_intervals] in E; [injection E as <- _; exact Hx|].
  destruct (g_interval cv ideal_if so (volt v) (cur v) x t) as [x2 [iv|]] eqn:G; [|discriminate E]. destruct (view (iv_y iv)) as [v'|]; [|discriminate E]. eapply IH; [|exact E]. eapply interval_inv; eassumption.
Qed.
Lemma intervals_same ts : forall v x x' y y' w w', grel R1 x x' -> g_intervals cv ideal_if so view cur volt v x ts = (y, Ok w) -> g_intervals cv ideal_if so view cur volt v x' ts = (y', Ok w') ->
  w = w' /\ grel R1 y y'.
Proof.
  induction ts as [|t ts IH]; intros v x x' y y' w w' Hx E E'; cbn [g_intervals] in E, E'; [injection E as <- <-; injection E' as <- <-; auto|].
  destruct (g_interval cv ideal_if so (volt v) (cur v) x t) as [x2 [iv|]] eqn:G; [|discriminate E]. destruct (g_interval cv ideal_if so (volt v) (cur v) x' t) as [x2' [iv'|]] eqn:G'; [|discriminate E'].
  destruct (interval_same _ _ _ _ _ _ _ _ _ Hx G G') as [<- Hx2]. destruct (view (iv_y iv)) as [v'|]; [|discriminate E]. eapply IH; eassumption.
Qed.
Notation sim := (g_simulate cv ideal_if so tau view cur volt volt_last act out limits).
Notation rst := (g_reset cv ideal_if so limits obs).
Lemma sim_inv a x x1 o : ginv x -> sim a x = (x1, Ok o) -> ginv x1.
Proof.
  intros Hx E. unfold g_simulate in E. destruct (so_y so (gs_e x)) as [y0|]; cbn [bind] in E; [|discriminate E]. destruct (view y0) as [v|]; cbn [bind] in E; [|discriminate E].
  destruct (act v a) as [a'|]; cbn [bind] in E; [|discriminate E]. pose proof (cf_set_inv _ _ _ _ _ HC (gs_c x) a' (gs_t x) (proj1 Hx)) as K.
  destruct (cv_set_action cv (gs_c x) a' (gs_t x)) as [c1 [ts|]]; [|discriminate E]. cbn [fst] in K.
  assert (Hx1 : ginv (g_with_c c1 x)) by (destruct Hx as (I1 & I2 & I3 & I4); split; [exact K|]; auto).
  destruct (g_intervals cv ideal_if so view cur volt v (g_with_c c1 x) (removelast ts)) as [x2 [w|]] eqn:G; [|discriminate E]. pose proof (intervals_inv _ _ _ _ _ Hx1 G) as Hx2.
  destruct (g_interval cv ideal_if so (volt_last w) (cur w) x2 (gs_t x2 + tau)) as [x3 [iv|]] eqn:G3; cbn [bind] in E; [|discriminate E]. pose proof (interval_inv _ _ _ _ _ _ Hx2 G3) as Hx3.
  destruct (so_t so (gs_e x3)) as [now|]; cbn [bind] in E; [|discriminate E]. cbn [gs_state] in E. destruct Hx3 as (I1 & I2 & I3 & I4).
  destruct (out w iv (gs_state x3)) as [st|] eqn:Go; [|discriminate E]. injection E as <- _. split; [exact I1|]. split; [exact I2|]. split; [exact I3|]. cbn [gs_state]. eapply Hout; eassumption.
Qed.
Lemma sim_same a x x' x1 x1' o o' : valid a -> grel R0 x x' -> sim a x = (x1, Ok o) -> sim a x' = (x1', Ok o') -> o = o' /\ grel R0 x1 x1'.
Proof.
  intros Ha Hx E E'. pose proof (sim_inv a x x1 o (proj1 Hx) E) as J. pose proof (sim_inv a x' x1' o' (proj1 (proj2 Hx)) E') as J'.
  destruct Hx as (Hi & Hi' & Rc & Re & Rt & Rk). destruct (same_read _ _ Re) as [_ Ey]. unfold g_simulate in E, E'. rewrite <- Ey in E'.
  destruct (so_y so (gs_e x)) as [y0|]; cbn [bind] in E, E'; [|discriminate E]. destruct (view y0) as [v|]; cbn [bind] in E, E'; [|discriminate E].
  destruct (act v a) as [a'|] eqn:Ga; cbn [bind] in E, E'; [|discriminate E]. rewrite <- Rt in E'. destruct (cf_set _ _ _ _ _ HC (gs_c x) (gs_c x') a' (gs_t x) Rc (Hact _ _ _ Ha Ga)) as [Ec Rc1].
  pose proof (cf_set_inv _ _ _ _ _ HC (gs_c x) a' (gs_t x) (proj1 Hi)) as K. pose proof (cf_set_inv _ _ _ _ _ HC (gs_c x') a' (gs_t x) (proj1 Hi')) as K'.
  destruct (cv_set_action cv (gs_c x) a' (gs_t x)) as [c1 ts], (cv_set_action cv (gs_c x') a' (gs_t x)) as [c1' ts']. cbn [fst snd] in *. subst ts'. destruct ts as [ts|]; [|discriminate E].
  assert (Hx1 : grel R1 (g_with_c c1 x) (g_with_c c1' x')).
  { destruct Hi as (I1 & I2 & I3 & I4), Hi' as (I1' & I2' & I3' & I4'). split; [split; [exact K|auto]|]. split; [split; [exact K'|auto]|]. split; [eapply Rc1; reflexivity|]. auto. }
  destruct (g_intervals cv ideal_if so view cur volt v (g_with_c c1 x) (removelast ts)) as [x2 [w|]] eqn:G; [|discriminate E].
  destruct (g_intervals cv ideal_if so view cur volt v (g_with_c c1' x') (removelast ts)) as [x2' [w'|]] eqn:G'; [|discriminate E']. destruct (intervals_same _ _ _ _ _ _ _ _ Hx1 G G') as [<- Hx2].
  destruct Hx2 as (Hi2 & Hi2' & Rc2 & Re2 & Rt2 & Rk2). rewrite <- Rt2 in E'.
  destruct (g_interval cv ideal_if so (volt_last w) (cur w) x2 (gs_t x2 + tau)) as [x3 [iv|]] eqn:G3; cbn [bind] in E; [|discriminate E].
  destruct (g_interval cv ideal_if so (volt_last w) (cur w) x2' (gs_t x2 + tau)) as [x3' [iv'|]] eqn:G3'; cbn [bind] in E'; [|discriminate E'].
  assert (Hx2 : grel R1 x2 x2') by (split; [exact Hi2|]; split; [exact Hi2'|]; auto).
  destruct (interval_same _ _ _ _ _ _ _ _ _ Hx2 G3 G3') as [<- (Hi3 & Hi3' & Rc3 & Re3 & Rt3 & Rk3)]. destruct (same_read _ _ Re3) as [Et3 _]. rewrite <- Et3 in E'.
  destruct (so_t so (gs_e x3)) as [now|]; cbn [bind] in E, E'; [|discriminate E]. cbn [gs_state gs_c gs_s gs_e gs_t gs_k] in E, E'.
  destruct (out w iv (gs_state x3)) as [st|] eqn:Go; [|discriminate E]. destruct (out w iv (gs_state x3')) as [st'|] eqn:Go'; [|discriminate E'].
  assert (st = st') as <- by (eapply Hsame; [| |exact Go|exact Go']; [apply Hi3|apply Hi3']). injection E as <- Eo. injection E' as <- Eo'. split; [congruence|]. split; [exact J|]. split; [exact J'|].
  split; [exact (cf_weak _ _ _ _ _ HC _ _ Rc3)|]. split; [exact Re3|]. cbn. split; congruence.
Qed.
Lemma rst_inv init x x1 o : ginv x -> rst init x = (x1, Ok o) -> ginv x1.
Proof.
  intros (I1 & I2 & I3 & I4) E. unfold g_reset in E. destruct init as [[mech ms]|]; [|discriminate E]. cbn [ideal_if sp_reset g_with_s gs_c] in E.
  pose proof (cf_reset_inv _ _ _ _ _ HC (gs_c x) I1) as K. destruct (cv_reset cv (gs_c x)) as [c1 [u|]]; cbn [bind] in E; [|discriminate E]. cbn [fst] in K.
  destruct (obs _ _ _ _) as [st|]; [|discriminate E]. cbn [g_with_c g_with_s gs_e gs_c gs_s gs_state] in E. pose proof (used_more (gs_e x) (SInit (mech ++ ms) 0) I3 I) as K2. cbn [s_step] in K2.
  destruct (so_initial so (mech ++ ms) 0 (gs_e x)) as [e1 [r|]]; [|discriminate E]. injection E as <- _. split; [exact K|]. split; [exact I2|]. split; [exact K2|exact I4].
Qed.
Lemma rst_same init x x' x1 x1' o o' : ginv x -> ginv x' -> rst init x = (x1, Ok o) -> rst init x' = (x1', Ok o') -> o = o' /\ grel R0 x1 x1'.
Proof.
  intros Hi Hi' E E'. pose proof (rst_inv init x x1 o Hi E) as J. pose proof (rst_inv init x' x1' o' Hi' E') as J'. destruct Hi as (I1 & I2 & I3 & I4), Hi' as (I1' & I2' & I3' & I4').
  unfold g_reset in E, E'. destruct init as [[mech ms]|]; [|discriminate E]. cbn [ideal_if sp_reset g_with_s gs_c] in E, E'.
  destruct (cf_reset _ _ _ _ _ HC (gs_c x) (gs_c x') I1 I1') as [Ec Rc]. destruct (cv_reset cv (gs_c x)) as [c1 u], (cv_reset cv (gs_c x')) as [c1' u']. cbn [fst snd] in *. subst u'.
  destruct u as [u|]; cbn [bind] in E, E'; [|discriminate E]. rewrite I2 in E. rewrite I2' in E'.
  destruct (obs mech ms (scale_voltages u (ideal_reset (ideal_new us))) (ideal_reset (ideal_new us))) as [st|]; [|discriminate E].
  cbn [g_with_c g_with_s gs_e gs_c gs_s gs_state] in E, E'. pose proof (same_initial (gs_e x) (gs_e x') (mech ++ ms) 0 I3 I3') as Re.
  destruct (so_initial so (mech ++ ms) 0 (gs_e x)) as [e1 [r|]]; [|discriminate E]. destruct (so_initial so (mech ++ ms) 0 (gs_e x')) as [e1' [r'|]]; [|discriminate E'].
  injection E as <- Eo. injection E' as <- Eo'. split; [congruence|]. split; [exact J|]. split; [exact J'|]. split; [exact Rc|]. split; [exact Re|]. split; reflexivity.
Qed.
End System.
