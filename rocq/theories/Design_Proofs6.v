(** Proofs about the automatic controller design for three-phase motors: induction motors. *)
From Coq Require Import Lia Lra ZArith.
From Verif Require Import Ops_Model Ops_Proofs Ops_Props Ops_Props2.
From Verif Require Import PyBase PyBaseFacts PyDict PyDictFacts Transform_Model PhysSys_Model Preset_Model Preset_Props Full_Spec
  Ex_Model Ex_Model2 Ex_Spec Ex_Proofs Ex_Proofs2 Ex_Proofs3 Ex_Proofs5 Ex_Model3 Ex_Spec2 Ex_Proofs6 Ex_Proofs7 Design_Model Design_Spec Design_Proofs Design_Proofs2
  Design_Model2 Design_Spec2 Design_Proofs4 Design_Proofs5.
Local Open Scope string_scope.
Local Open Scope list_scope.
Local Open Scope R_scope.

Definition is_im (m : motor_class) : bool := match m with Scim | Dfim => true | _ => false end.
Lemma im_ac m : is_im m = true -> is_dc m = false.
Proof. destruct m; cbn; congruence. Qed.
Record im_par (e : env) (p lm lss lsr rs rr : R) : Prop := {
  ip_p : dict_item "p" (en_mp e) = Ok p; ip_lm : dict_item "l_m" (en_mp e) = Ok lm; ip_lss : dict_item "l_sigs" (en_mp e) = Ok lss; ip_lsr : dict_item "l_sigr" (en_mp e) = Ok lsr;
  ip_rs : dict_item "r_s" (en_mp e) = Ok rs; ip_rr : dict_item "r_r" (en_mp e) = Ok rr; ip_pos : 0 < p /\ 0 < lm /\ 0 < lss /\ 0 < lsr /\ 0 < rs /\ 0 < rr }.
Lemma im_mp t f m d : is_im m = true -> shape3 t f m d -> exists p lm lss lsr rs rr, im_par (tp_env d) p lm lss lsr rs rr.
Proof.
  intros D S. pose proof (s3_mp _ _ _ _ S) as M. unfold ac_parameters in M. destruct m; try discriminate D; destruct M as (M1 & M2 & M3 & M4 & M5 & M6);
    destruct (pos_item _ _ M1) as (p & ? & ?), (pos_item _ _ M2) as (lm & ? & ?), (pos_item _ _ M3) as (lss & ? & ?), (pos_item _ _ M4) as (lsr & ? & ?), (pos_item _ _ M5) as (rs & ? & ?), (pos_item _ _ M6) as (rr & ? & ?);
    exists p, lm, lss, lsr, rs, rr; constructor; auto; repeat split; assumption.
Qed.
(** The gain of the current controllers and its quotient with the integral gain *)
Definition tau_sig (lm lss lsr rs rr : R) : R := let ls := lm + lss in let lr := lm + lsr in (ls * lr - lm * lm) / (ls * lr) * ls / (rs + rr * (lm * lm) / (lr * lr)).
Definition im_gain (lm lss lsr rs rr : R) : R := (lm + lsr) / rr / tau_sig lm lss lsr rs rr.
Lemma im_current_ok e p lm lss lsr rs rr rest : im_par e p lm lss lsr rs rr ->
  let g := im_gain lm lss lsr rs rr in let gi := g / tau_sig lm lss lsr rs rr in
  im_current e ([pis; pis] :: rest) = Ok ((g, gi), [pi_gains g gi pis; pi_gains g gi pis] :: rest) /\ im_current e ([ons] :: rest) = Err IndexError.
Proof. intros [E1 E2 E3 E4 E5 E6 _]. cbv zeta. unfold im_current. rewrite E2, E3, E4, E5, E6. split; reflexivity. Qed.
Lemma gain_imc_ok t f m d L a p lm lss lsr rs rr : is_im m = true -> t <> CurrentControl -> shape3 t f m d -> im_par (tp_env d) p lm lss lsr rs rr ->
  let g := im_gain lm lss lsr rs rr in let gi := g / tau_sig lm lss lsr rs rr in let tn := g / gi in let pw := tp_j d / (a * a * tn) / tl_torque L * tl_omega L in
  gain_imc d L a ([pis; pis] :: overlaid t pis) = Ok ([pi_gains g gi pis; pi_gains g gi pis] :: overlaid t (pi_gains pw (pw / (a * tn)) pis)).
Proof.
  intros D T S P. cbv zeta. destruct (im_current_ok _ _ _ _ _ _ _ (overlaid t pis) P) as [E _]. cbv zeta in E. unfold gain_imc. rewrite (s3_refs _ _ _ _ S). destruct t; try contradiction.
  - change (Ex_Model3.has "torque" (controlled SpeedControl m)) with false. cbn [overlaid at_ nth_error bind] in *. rewrite E. cbn [bind fst snd]. reflexivity.
  - change (Ex_Model3.has "torque" (controlled TorqueControl m)) with true. cbn [overlaid bind] in *. rewrite E. reflexivity.
Qed.
Lemma fobs_ok t f m d p lm lss lsr rs rr : shape3 t f m d -> opaque (tp_access d) = false -> im_par (tp_env d) p lm lss lsr rs rr -> fobs_new d = if tp_complex d then Ok tt else Err AttributeError.
Proof. intros S A [E1 E2 E3 E4 E5 E6 _]. unfold fobs_new. rewrite attr, A, E1, E2, E4, E6. reflexivity. Qed.
Lemma imf_new_ok f m d g gi p lm lss lsr rs rr rest : is_im m = true -> shape3 CurrentControl f m d -> opaque (tp_access d) = false -> im_par (tp_env d) p lm lss lsr rs rr -> tp_complex d = true ->
  (f = true -> m = Dfim) -> let pi := BPi {| pi_p := g; pi_i := gi; pi_tau := en_tau (tp_env d); pi_int := 0 |} in
  exists c, imf_new d ([pi_gains g gi pis; pi_gains g gi pis] :: rest) = Ok (0%nat, 1%nat, c, if f then None else Some (pi, pi)) /\ im_fix (length (motor_states m)) c /\
    (if f then cp_alow c = [] else SBox (cp_alow c) (cp_ahigh c) = space3 false m).
Proof.
  intros D S A P Cx Fm. cbv zeta. unfold imf_new. cbv zeta. rewrite (fobs_ok _ _ _ _ _ _ _ _ _ _ S A P), Cx. cbn [bind]. destruct (s3_bounds _ _ _ _ S) as (B1 & B2 & _). destruct P as [E1 E2 E3 E4 E5 E6 _]. rewrite (s3_names _ _ _ _ S), (s3_refs _ _ _ _ S), (s3_space _ _ _ _ S), E1, E2, E3, E4, E5, E6.
  destruct f; [rewrite (Fm eq_refl) in *|destruct m; try discriminate D]; cbn [bind]; (eexists; split; [reflexivity|]); (split; [constructor; cbn -[en_limits]; try lia; try assumption; do 3 eexists; (split; [reflexivity|]); lia|reflexivity]).
Qed.
Lemma imt_new_ok t f m d g gi p lm lss lsr rs rr : is_im m = true -> shape3 t f m d -> im_par (tp_env d) p lm lss lsr rs rr -> exists x, imt_new (tp_env d) (pi_gains g gi pis) = Ok x.
Proof.
  intros D S [E1 E2 E3 E4 E5 E6 _]. unfold imt_new. cbv zeta. rewrite E1, E2, E3, E4, E5, E6. cbn [bind]. rewrite (s3_names _ _ _ _ S).
  assert (I : exists a b c u v w z, str_index "i_sd" (motor_states m) = Ok a /\ str_index "i_sq" (motor_states m) = Ok b /\ str_index "torque" (motor_states m) = Ok c /\ str_index "u_sa" (motor_states m) = Ok u /\ str_index "u_sd" (motor_states m) = Ok v /\ str_index "u_sq" (motor_states m) = Ok w /\ str_index "omega" (motor_states m) = Ok z).
  { destruct m; try discriminate D; do 7 eexists; repeat split; reflexivity. }
  destruct I as (ia & ib & ic & iu & iv & iw & iz & I1 & I2 & I3 & I4 & I5 & I6 & I7). rewrite I1, I2, I3, I4, I5, I6, I7. cbn [bind]. change (dict_item "p_gain" (st_par (pi_gains g gi pis))) with (@Ok R g). cbn [bind].
  destruct (s3_bounds _ _ _ _ S) as (B1 & B2 & _). pose proof (index_lt _ _ _ I1). pose proof (index_lt _ _ _ I3). pose proof (index_lt _ _ _ I4). pose proof (index_lt _ _ _ I5). pose proof (index_lt _ _ _ I7).
  itm (en_limits (tp_env d)) ia il. itm (en_limits (tp_env d)) ic tlim.
  match goal with |- context [psi_opt_table ?c ?x ?y ?z] => destruct (psi_opt_table_ok c x y z) as (tab & -> & Lt) end. cbn [bind].
  destruct tab as [|r0 tab]; [discriminate Lt|]. cbn [map np_max bind]. itm (en_nominal (tp_env d)) iv un. itm (en_nominal (tp_env d)) iz wn. itm (en_limits (tp_env d)) iu ul. eexists. reflexivity.
Qed.
Lemma imc_make_ok t m d g gi w wi p lm lss lsr rs rr : is_im m = true -> t <> CurrentControl -> shape3 t false m d -> opaque (tp_access d) = false -> im_par (tp_env d) p lm lss lsr rs rr -> tp_complex d = true ->
  let pi x y := BPi {| pi_p := x; pi_i := y; pi_tau := en_tau (tp_env d); pi_int := 0 |} in
  exists c s mt ms, imc_make d ([pi_gains g gi pis; pi_gains g gi pis] :: overlaid t (pi_gains w wi pis)) = Ok (c, s) /\ ic_fix (length (motor_states m)) c /\ ic_inv (cp_omega c) s /\
    SBox (cp_alow c) (cp_ahigh c) = space3 false m /\ imt_new (tp_env d) (pi_gains g gi pis) = Ok (mt, ms) /\ cp_t c = Some mt /\ cs_t s = Some ms /\
    cs_d s = pi g gi /\ cs_q s = pi g gi /\ cs_over s = match t with SpeedControl => [pi w wi] | _ => [] end.
Proof.
  intros D T S A P Cx. cbv zeta. destruct (imt_new_ok _ _ _ _ g gi _ _ _ _ _ _ D S P) as ([mt ms] & I). unfold imc_make. rewrite (fobs_ok _ _ _ _ _ _ _ _ _ _ S A P), Cx. cbn [bind at_ nth_error]. unfold imc_new. cbv zeta. destruct (s3_bounds _ _ _ _ S) as (B1 & B2 & _). pose proof (s3_low _ _ _ _ S) as B3. pose proof (s3_high _ _ _ _ S) as B4.
  destruct P as [E1 E2 E3 E4 E5 E6 _]. rewrite (s3_space _ _ _ _ S), (s3_refs _ _ _ _ S), (s3_names _ _ _ _ S), E1, E2, E3, E4, E6. cbn [bind at_ nth_error]. rewrite I.
  destruct t; try contradiction; destruct m; try discriminate D; cbn [bind space3 overlaid]; do 2 eexists; exists mt, ms; (split; [reflexivity|]); cbn [cp_omega cp_alow cp_ahigh cp_t cs_t cs_d cs_q cs_over];
    (split; [constructor; cbn [cp_omega cp_torque cp_sl cp_tq cp_t]; try reflexivity; [constructor; cbn -[en_limits]; try lia; try assumption; do 3 eexists; (split; [reflexivity|]); lia|constructor; cbn -[en_limits en_low en_high en_nominal]; try reflexivity; try assumption; try lia; do 3 eexists; (split; [|reflexivity]); lia|cbn; lia|eexists; reflexivity]|]);
    (split; [constructor; cbn; auto; eexists; try split; reflexivity|]); repeat (split; [reflexivity|]); reflexivity.
Qed.

Lemma hollow_ok t f m d g gi rest p lm lss lsr rs rr : is_im m = true -> t <> CurrentControl -> shape3 t f m d -> opaque (tp_access d) = false -> im_par (tp_env d) p lm lss lsr rs rr ->
  match tp_complex d with true => exists h, imc_hollow d ([pi_gains g gi pis; pi_gains g gi pis] :: rest) = Ok h | false => imc_hollow d ([pi_gains g gi pis; pi_gains g gi pis] :: rest) = Err AttributeError end.
Proof.
  intros D T S A P. destruct (imt_new_ok _ _ _ _ g gi _ _ _ _ _ _ D S P) as (x & I). unfold imc_hollow. rewrite (fobs_ok _ _ _ _ _ _ _ _ _ _ S A P). destruct (tp_complex d); [|reflexivity]. cbn [bind at_ nth_error]. cbv zeta.
  destruct P as [E1 E2 E3 E4 E5 E6 _]. rewrite E1, E2, E4, E6, (s3_names _ _ _ _ S), (s3_refs _ _ _ _ S). destruct t; try contradiction; destruct m; try discriminate D; cbn [bind]; (change (torque_mode _) with true || idtac); cbn [bind]; rewrite ?I; eexists; reflexivity.
Qed.
(** The torque conversion of a drive with defined flux and equal nominal currents never raises. *)
Lemma conversion_fine t f m d g gi mt ms : is_im m = true -> shape3 t f m d -> imt_new (tp_env d) (pi_gains g gi pis) = Ok (mt, ms) -> flux_defined (tp_env d) ->
  (exists ld lq n, quantity (tp_env d) "i_sd" ld n /\ quantity (tp_env d) "i_sq" lq n) -> forall s x t psi, length x = length (motor_states m) -> exists o, imt_control mt s x t psi = Ok o.
Proof.
  intros D S N FD (ld & lq & n & Q1 & Q2) s x tq psi Lx. destruct (im_mp _ _ _ _ D S) as (p & lm & lss & lsr & rs & rr & [E1 E2 E3 E4 E5 E6 (P1 & P2 & P3 & P4 & P5 & P6)]). pose proof (imt_new_facts _ _ _ _ N) as F.
  destruct (s3_bounds _ _ _ _ S) as (B1 & B2 & B).
  assert (QQ : forall nm, In nm ["torque"; "u_sd"; "u_sq"; "omega"] -> exists j l w, str_index nm (motor_states m) = Ok j /\ (j < length (motor_states m))%nat /\ item (en_limits (tp_env d)) j = Ok l /\ item (en_nominal (tp_env d)) j = Ok w /\ 0 < w <= l).
  { intros nm Hn. assert (K : exists j, str_index nm (motor_states m) = Ok j) by (repeat (destruct Hn as [<-|Hn]; [destruct m; try discriminate D; eexists; reflexivity|]); destruct Hn). destruct K as (j & K). pose proof (index_lt _ _ _ K) as Lj. itm (en_limits (tp_env d)) j l. itm (en_nominal (tp_env d)) j w. exists j, l, w. repeat split; auto; apply (B j w l Hi0 Hi). }
  destruct (QQ "torque") as (jt & tlim & nt & T1 & T2 & T3 & T4 & T5); [cbn; tauto|]. destruct (QQ "u_sd") as (jd & ud & und & U1 & U2 & U3 & U4 & U5); [cbn; tauto|]. destruct (QQ "u_sq") as (jq & uq & unq & V1 & V2 & V3 & V4 & V5); [cbn; tauto|]. destruct (QQ "omega") as (jw & lw & wn & W1 & W2 & W3 & W4 & W5); [cbn; tauto|].
  assert (BQ : forall nm l w, quantity (tp_env d) nm l w -> 0 < w <= l) by (intros nm l w (j & J1 & J2 & J3); exact (B j w l J3 J2)).
  pose proof (BQ _ _ _ Q1) as Z1. pose proof (BQ _ _ _ Q2) as Z2.
  assert (Dr : im_drive (tp_env d) p lm lsr lss rr rs ld lq tlim n und wn).
  { unfold im_drive. repeat (split; [first [assumption|lra]|]). split; [|split].
    - exists nt, jt. rewrite (s3_names _ _ _ _ S). auto.
    - exists ud, jd. rewrite (s3_names _ _ _ _ S). auto.
    - exists lw, jw. rewrite (s3_names _ _ _ _ S). auto. }
  pose proof (FD p lm lsr lss rr rs ld tlim n nt E1 E2 E4 E3 E6 E5 Q1 ltac:(exists jt; rewrite (s3_names _ _ _ _ S); auto)) as M. cbv zeta in M.
  apply (dr_total _ _ _ _ _ _ _ _ _ _ _ _ _ _ _ _ F Dr).
  - destruct (dr_psimax_eq _ _ _ _ _ _ _ _ _ _ _ _ _ _ _ _ F Dr M) as [E _]. rewrite E. apply Rmult_lt_0_compat; [exact P2|lra].
  - pose proof (fa_usd _ _ _ _ F) as G1. pose proof (fa_usq _ _ _ _ F) as G2. pose proof (fa_om _ _ _ _ F) as G3. rewrite (s3_names _ _ _ _ S) in G1, G2, G3. assert (jd = mt_usd mt) by congruence. assert (jq = mt_usq mt) by congruence. assert (jw = mt_om mt) by congruence. subst jd jq jw.
    rewrite <- Lx in U2, V2, W2. itm x (mt_usd mt) xa. itm x (mt_usq mt) xb. itm x (mt_om mt) xc. eauto 8.
  - rewrite (fa_lim _ _ _ _ F). pose proof (fa_usd _ _ _ _ F) as G1. pose proof (fa_usq _ _ _ _ F) as G2. pose proof (fa_om _ _ _ _ F) as G3. rewrite (s3_names _ _ _ _ S) in G1, G2, G3. assert (jd = mt_usd mt) by congruence. assert (jq = mt_usq mt) by congruence. assert (jw = mt_om mt) by congruence. subst jd jq jw. eauto 8.
Qed.
Lemma stages_im t m f : is_im m = true -> stages3 t f m = (if f && match m with Scim => true | _ => false end then [[ons]; [ons]; [ons]] else [[pis; pis]]) ++ overlaid t pis.
Proof. destruct t, m, f; try discriminate; reflexivity. Qed.
Lemma imf_outcome f m d g gi rest p lm lss lsr rs rr : is_im m = true -> shape3 CurrentControl f m d -> opaque (tp_access d) = false -> im_par (tp_env d) p lm lss lsr rs rr -> (f = true -> m = Dfim) ->
  outcome (if tp_complex d then match m with Scim => Works | _ => Useless end else Raise AttributeError) d
   (do c <- imf_new d ([pi_gains g gi pis; pi_gains g gi pis] :: rest); let '(rd, rq, p, s) := c in Ok (MImf rd rq p s)).
Proof.
  intros D S A P Fm. destruct (tp_complex d) eqn:Cx.
  - destruct (imf_new_ok f m d g gi p lm lss lsr rs rr rest D S A P Cx Fm) as (c & E & Fx & Sp). cbv zeta in E. rewrite E. cbn [bind].
    assert (K : m = Scim \/ m = Dfim) by (destruct m; try discriminate D; auto). destruct K as [-> | ->]; cbn [outcome]; eexists; (split; [reflexivity|]); intros h F; cbv zeta; rewrite (s3_names _ _ _ _ S) in F.
    + destruct f; [discriminate (Fm eq_refl)|]. cbn in Sp. injection Sp as A1 A2. rewrite (s3_refs _ _ _ _ S) in F. change (length (controlled CurrentControl Scim)) with 2%nat in F. destruct (imf_total _ 2%nat c 0%nat 1%nat Fx A1 A2 ltac:(lia) ltac:(lia) h ((0, 0), Some (BPi {| pi_p := g; pi_i := gi; pi_tau := en_tau (tp_env d); pi_int := 0 |}, BPi {| pi_p := g; pi_i := gi; pi_tau := en_tau (tp_env d); pi_int := 0 |})) ltac:(eexists; split; [reflexivity|split; reflexivity]) F) as (l & R1 & R2).
      exists l. split; [exact R1|]. exact (fine_box Scim d l eq_refl (s3_space _ _ _ _ S) R2).
    + refine (imf_useless _ _ c 0 1 _ Fx _ _ h F); [destruct f; [rewrite Sp; discriminate|cbn in Sp; injection Sp as -> _; discriminate]|]. intros cs Ecs. cbn [snd] in Ecs. destruct f; [discriminate Ecs|]. apply some_inj in Ecs. subst cs. split; reflexivity.
  - unfold imf_new. cbv zeta. rewrite (fobs_ok _ _ _ _ _ _ _ _ _ _ S A P), Cx. reflexivity.
Qed.
Lemma imc_outcome t m d g gi w wi p lm lss lsr rs rr : is_im m = true -> t <> CurrentControl -> shape3 t false m d -> opaque (tp_access d) = false -> im_par (tp_env d) p lm lss lsr rs rr ->
  outcome (if tp_complex d then match m with Scim => Works | _ => Useless end else Raise AttributeError) d
   (do c <- imc_make d ([pi_gains g gi pis; pi_gains g gi pis] :: overlaid t (pi_gains w wi pis)); Ok (MImc (fst c) (snd c))).
Proof.
  intros D T S A P. destruct (tp_complex d) eqn:Cx.
  - destruct (imc_make_ok t m d g gi w wi p lm lss lsr rs rr D T S A P Cx) as (c & s & mt & ms & E & Fx & Iv & Sp & N & Ct & _). rewrite E. cbn [bind fst snd]. pose proof (refs_pos _ _ _ _ (im_ac m D) S) as Rp.
    assert (K : m = Scim \/ m = Dfim) by (destruct m; try discriminate D; auto). destruct K as [-> | ->]; cbn [outcome]; eexists; (split; [reflexivity|]); intros h F; cbv zeta; rewrite (s3_names _ _ _ _ S) in F.
    + cbn in Sp. injection Sp as A1 A2. pose proof (ic_total _ _ c Fx Rp A1 A2 h s Iv F) as R1. destruct (imc_run c s h) as [[[s' l]|]|x]; [exact (fine_box Scim d l eq_refl (s3_space _ _ _ _ S) R1)|exact Logic.I|].
      intros [FD QD]. apply R1. intros mt' s1 x1 t1 psi1 C1 L1. rewrite Ct in C1. apply some_inj in C1. subst mt'. exact (conversion_fine _ _ _ _ _ _ _ _ D S N FD QD s1 x1 t1 psi1 L1).
    + refine (ic_useless _ _ c Fx Rp _ h s Iv F). cbn in Sp. injection Sp as -> _. discriminate.
  - cbn [outcome]. unfold imc_make. rewrite (fobs_ok _ _ _ _ _ _ _ _ _ _ S A P), Cx. reflexivity.
Qed.
Lemma make3_im t f m d a : is_im m = true -> opaque (tp_access d) = false -> shape3 t f m d -> outcome (ac_verdict f t m d) d (make3 d a).
Proof.
  intros D A S. pose proof (design3 _ _ _ _ (im_ac m D) S) as Ds. pose proof (lims3 _ _ _ _ (im_ac m D) S) as Lm. rewrite A in Ds, Lm. rewrite andb_false_r in Ds. destruct Lm as (L & Lm & _). destruct (im_mp _ _ _ _ D S) as (p & lm & lss & lsr & rs & rr & P).
  unfold make3. rewrite Ds, Lm. cbn [bind fst snd]. assert (Ac : forall X (x y : X), match tp_access d with Opaque => x | _ => y end = y) by (intros; destruct (tp_access d); try reflexivity; discriminate A).
  unfold ac_verdict. rewrite Ac. rewrite (stages_im t m f D).
  assert (K : (m = Scim /\ f = true) \/ (f && match m with Scim => true | _ => false end = false)) by (destruct m, f; try discriminate D; auto). destruct K as [[-> ->]|K].
  - destruct (im_current_ok _ _ _ _ _ _ _ ([[ons]; [ons]] ++ overlaid t pis) P) as [_ Ic]. assert (Ec : im_current (tp_env d) ([[ons]; [ons]; [ons]] ++ overlaid t pis) = Err IndexError) by exact Ic.
    destruct t; cbn [name3 system_for String.eqb Ascii.eqb Bool.eqb andb outcome]; [..|rewrite Ec; reflexivity]; unfold gain_imc; rewrite (s3_refs _ _ _ _ S), Ec; reflexivity.
  - rewrite K. change ([[pis; pis]] ++ overlaid t pis) with ([pis; pis] :: overlaid t pis).
    assert (Fm : f = true -> m = Dfim) by (intros ->; destruct m; try discriminate D; try discriminate K; reflexivity).
    assert (V2 : outcome (if tp_complex d then match m with Scim => Works | _ => Useless end else Raise AttributeError) d (make3 d a)); [|unfold make3 in V2; rewrite Ds, Lm in V2; cbn [bind fst snd] in V2; rewrite (stages_im t m f D), K in V2; destruct m, f, t; try discriminate D; try discriminate K; exact V2].
    unfold make3. rewrite Ds, Lm. cbn [bind fst snd]. rewrite (stages_im t m f D), K. change ([[pis; pis]] ++ overlaid t pis) with ([pis; pis] :: overlaid t pis).
    assert (TC : t = CurrentControl \/ t <> CurrentControl) by (destruct t; (now left) || (right; discriminate)). destruct TC as [-> | TC].
    + assert (Nm : name3 CurrentControl m = "foc_rotor_flux_observer") by (destruct m; try discriminate D; reflexivity). rewrite Nm. cbn [String.eqb Ascii.eqb Bool.eqb]. destruct (im_current_ok _ _ _ _ _ _ _ (overlaid CurrentControl pis) P) as [-> _]. cbn [bind snd]. apply (imf_outcome f m d _ _ _ p lm lss lsr rs rr); assumption.
    + assert (Nm : name3 t m = "cascaded_foc_rotor_flux_observer") by (destruct m, t; try discriminate D; try contradiction; reflexivity). rewrite Nm. cbn [String.eqb Ascii.eqb Bool.eqb]. rewrite (gain_imc_ok t f m d L a _ _ _ _ _ _ D TC S P). cbn [bind]. rewrite (s3_space _ _ _ _ S). destruct f.
      * rewrite (Fm eq_refl) in *. cbn [space3 is_box]. pose proof (hollow_ok t true Dfim d (im_gain lm lss lsr rs rr) (im_gain lm lss lsr rs rr / tau_sig lm lss lsr rs rr)) as H. specialize (H (overlaid t (pi_gains (tp_j d / (a * a * (im_gain lm lss lsr rs rr / (im_gain lm lss lsr rs rr / tau_sig lm lss lsr rs rr))) / tl_torque L * tl_omega L) (tp_j d / (a * a * (im_gain lm lss lsr rs rr / (im_gain lm lss lsr rs rr / tau_sig lm lss lsr rs rr))) / tl_torque L * tl_omega L / (a * (im_gain lm lss lsr rs rr / (im_gain lm lss lsr rs rr / tau_sig lm lss lsr rs rr)))) pis)) p lm lss lsr rs rr D TC S A P).
        destruct (tp_complex d); cbn [outcome].
        -- destruct H as (h & H). rewrite H. cbn [bind]. eexists. split; [reflexivity|]. intros hh _. cbv zeta. intros st r act. apply hollow_none.
        -- rewrite H. reflexivity.
      * assert (Bx : is_box (space3 false m) = true) by (destruct m; reflexivity). rewrite Bx. apply (imc_outcome t m d _ _ _ _ p lm lss lsr rs rr); assumption.
Qed.
Lemma make3_opaque t f m d a : is_dc m = false -> opaque (tp_access d) = true -> shape3 t f m d -> make3 d a = Err AttributeError.
Proof.
  intros D A S. pose proof (design3 _ _ _ _ D S) as Ds. pose proof (lims3 _ _ _ _ D S) as Lm. rewrite A in Ds, Lm. unfold make3. rewrite Ds. destruct (negb (is_sync (system_for m))); cbn [andb bind]; [reflexivity|]. rewrite Lm. reflexivity.
Qed.
Lemma make3_outcome t f m d a : is_dc m = false -> shape3 t f m d -> outcome (ac_verdict f t m d) d (make3 d a).
Proof.
  intros D S. destruct (opaque (tp_access d)) eqn:A.
  - rewrite (make3_opaque t f m d a D A S). unfold ac_verdict. destruct (tp_access d); try discriminate A. reflexivity.
  - destruct (is_syn m) eqn:Y; [apply make3_sync; assumption|]. apply make3_im; [destruct m; try discriminate D; try discriminate Y; reflexivity|exact A|exact S].
Qed.
