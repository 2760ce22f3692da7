(** C159-C163: the automatic design of controllers for DC motors,
    examples/classic_controllers/classic_controllers.py. *)
From Verif Require Import PyBase PyBaseFacts PyDict PyDictFacts Transform_Model PhysSys_Model Preset_Model Preset_Props Full_Spec
  Ex_Model Ex_Model2 Ex_Spec Design_Model Design_Spec Design_Proofs Design_Proofs2 Design_Proofs3.
From Coq Require Import Lia Lra.
Local Open Scope string_scope.
Local Open Scope list_scope.
Local Open Scope R_scope.

(** A description of an environment with all limits and parameters one, to show that the
    theorems apply to every DC environment *)
Definition sample (p : preset) (acc : access) : dc :=
  let ones := map (fun _ => 1) (all_names p) in
  let at_names ks := map (fun k => match str_index k (all_names p) with Ok i => i | Err _ => O end) ks in
  {| dc_env := {| en_names := all_names p; en_low := map (fun _ => -1) (all_names p); en_high := ones; en_limits := ones; en_nominal := ones;
                  en_cur := at_names (current_states (pr_motor p)); en_volt := at_names (voltage_states (pr_motor p));
                  en_space := match space_for (pr_conv p) with Some s => s | None => SDisc 1 end;
                  en_mp := [("r_a", 1); ("r_e", 1); ("l_a", 1); ("l_e", 1); ("l_e_prime", 1); ("psi_e", 1)];
                  en_extex := match pr_motor p with ExtExDc => true | _ => false end; en_tau := 1 / 1000 |};
     dc_series := match pr_motor p with SeriesDc => true | _ => false end; dc_wrapped := match pr_wrappers p with [] => false | _ => true end;
     dc_access := acc; dc_j := 1; dc_refs := ref_names p |}.
Example sample_fits : forall p acc, In p presets -> is_dc (pr_motor p) = true -> dc_of p (sample p acc).
Proof.
  intros p acc Ip D. constructor; cbn [sample dc_env dc_series dc_wrapped dc_access dc_j dc_refs en_names en_low en_high en_limits en_nominal en_cur en_volt en_space en_mp en_extex en_tau]; rewrite ?map_length; try reflexivity.
  - induction (all_names p); cbn; constructor; [lra|assumption].
  - destruct presets_fit_their_ids as (H & _). destruct (H p Ip) as (f1 & t1 & m1 & _ & F1). rewrite (fit_motor _ _ _ _ F1) in D. rewrite (fit_conv _ _ _ _ F1). destruct f1, m1; try discriminate D; reflexivity.
  - destruct (wrappers_of p Ip D) as [-> _]. destruct (pr_motor p); try discriminate D; cbn; repeat constructor.
  - destruct (wrappers_of p Ip D) as [-> _]. destruct (pr_motor p); try discriminate D; cbn; repeat constructor.
  - unfold parameters, positive. destruct (pr_motor p); repeat split; cbn; exists 1; split; try reflexivity; lra.
  - destruct (pr_motor p); split; congruence.
  - destruct (pr_motor p); split; congruence.
  - destruct (pr_wrappers p); split; congruence.
  - lra.
Qed.

(** ** C159 [Controller.make(env)] without further arguments, for each of the 24 DC
    environments with any limits, parameters and kind of environment object: either it raises
    the exception in [design_verdict], or the result is a controller that never raises and
    whose actions are always in the action space. *)
Theorem automatic_dc_design_verdict : forall f t m p d a, In p presets -> pr_id p = env_id f t m -> is_dc m = true -> dc_of p d -> 0 < a ->
  match design_verdict f t m (dc_access d) with
  | Usable => exists c, make d None a true = Some (Ok c) /\ usable d c
  | Raises x => make d None a true = Some (Err x)
  end.
Proof.
  intros f t m p d a Ip Id D O _. pose proof (shape_of _ _ _ _ _ Ip Id D O) as S. destruct t; cbn [design_verdict].
  - apply (cascade_made SpeedControl f m d a D eq_refl S).
  - apply (cascade_made TorqueControl f m d a D eq_refl S).
  - destruct f.
    + destruct (current_disc m d a D S) as (r & E & V). destruct (dc_access d), m; try discriminate D; cbn in V |- *; try (subst r; exact E); destruct V as (c & -> & U); eauto.
    + destruct (current_cont m d a D S) as (r & E & V). destruct (dc_access d), m; try discriminate D; cbn in V |- *; try (subst r; exact E); destruct V as (c & -> & U); eauto.
Qed.
Print Assumptions automatic_dc_design_verdict.
(** The automatic design does not work for all environments, not even for bare ones. *)
Theorem automatic_dc_design_works_refuted :
  ~ (forall f t m p d, In p presets -> pr_id p = env_id f t m -> is_dc m = true -> dc_of p d -> dc_access d = Bare ->
     exists c, make d None 4 true = Some (Ok c)).
Proof.
  intros H. destruct presets_fit_their_ids as (G & G2 & _). destruct (G2 false CurrentControl ShuntDc) as (p & Ip & Id).
  assert (D : is_dc ShuntDc = true) by reflexivity. assert (M : pr_motor p = ShuntDc).
  { destruct (G p Ip) as (f1 & t1 & m1 & I1 & F1). rewrite Id in I1. pose proof (parse_env_id false CurrentControl ShuntDc) as P1. rewrite I1, parse_env_id in P1. injection P1 as -> -> ->. apply (fit_motor _ _ _ _ F1). }
  pose proof (sample_fits p Bare Ip ltac:(rewrite M; reflexivity)) as O. destruct (H false CurrentControl ShuntDc p _ Ip Id D O eq_refl) as (c & E).
  pose proof (automatic_dc_design_verdict false CurrentControl ShuntDc p _ 4 Ip Id D O ltac:(lra)) as V. cbn [design_verdict sample dc_access] in V. congruence.
Qed.
Print Assumptions automatic_dc_design_works_refuted.
(** Non-vacuity: a speed controller for the externally excited motor is made, whatever the kind
    of the environment object. *)
Example automatic_design_example : forall acc, exists p c, In p presets /\ pr_id p = env_id false SpeedControl ExtExDc /\ make (sample p acc) None 4 true = Some (Ok c) /\ usable (sample p acc) c.
Proof.
  intros acc. destruct presets_fit_their_ids as (G & G2 & _). destruct (G2 false SpeedControl ExtExDc) as (p & Ip & Id). exists p.
  assert (M : pr_motor p = ExtExDc).
  { destruct (G p Ip) as (f1 & t1 & m1 & I1 & F1). rewrite Id in I1. pose proof (parse_env_id false SpeedControl ExtExDc) as P1. rewrite I1, parse_env_id in P1. injection P1 as -> -> ->. apply (fit_motor _ _ _ _ F1). }
  pose proof (sample_fits p acc Ip ltac:(rewrite M; reflexivity)) as O.
  destruct (automatic_dc_design_verdict false SpeedControl ExtExDc p _ 4 Ip Id eq_refl O ltac:(lra)) as (c & E & U). exists c. auto.
Qed.

(** ** C160 The gains of the cascade for the externally excited motor.  Expected: each of the
    three controllers gets the gains computed for it.  This holds only for an environment
    object of one of the six classes itself; an object from [gem.make] is a wrapper, and then
    the speed or torque controller keeps the default gains, and the controller of the
    excitation current gets the gains that are meant for the speed controller. *)
Theorem extex_cascade_gains_refuted : forall t p d a wl il iel ul uel la le, t <> CurrentControl -> In p presets -> pr_id p = env_id false t ExtExDc -> dc_of p d -> 0 < a ->
  en_limits (dc_env d) = [wl; nth 1 (en_limits (dc_env d)) 0; il; iel; ul; uel; nth 6 (en_limits (dc_env d)) 0] ->
  dict_get "l_a" (en_mp (dc_env d)) = Some la -> dict_get "l_e" (en_mp (dc_env d)) = Some le ->
  let tau := en_tau (dc_env d) in
  let current_gain := la / (tau * a) / ul * il in
  let speed_gain := dc_j d / (a * (tau * (a * a))) / il * wl in
  let excitation_gain := le / (tau * a) / uel * iel in
  exists c e b0 b1 be, make d None a true = Some (Ok (MCasc c)) /\ cc_stages c = [BPi b0; BPi b1] /\ cc_exc c = Some e /\ cx_ctl e = BPi be /\
    pi_p b0 = current_gain /\ pi_i b0 = current_gain / (tau * (a * a)) /\
    match dc_access d with
    | Bare => pi_p b1 = speed_gain /\ pi_i b1 = speed_gain / (a * (tau * (a * a))) /\ pi_p be = excitation_gain /\ pi_i be = excitation_gain / (tau * (a * a))
    | _ => pi_p b1 = 5 /\ pi_i b1 = 5 /\ pi_p be = speed_gain /\ pi_i be = speed_gain / (a * (tau * (a * a)))
    end.
Proof.
  intros t p d a wl il iel ul uel la le T Ip Id O _ Li La Le. cbv zeta. pose proof (shape_of _ _ _ _ _ Ip Id eq_refl O) as S. assert (T' : cascade_task t = true) by (destruct t; try reflexivity; contradiction).
  assert (I0 : item (en_limits (dc_env d)) 0 = Ok wl) by (rewrite Li; reflexivity). assert (I2 : item (en_limits (dc_env d)) 2 = Ok il) by (rewrite Li; reflexivity). assert (I3 : item (en_limits (dc_env d)) 3 = Ok iel) by (rewrite Li; reflexivity).
  assert (I4 : item (en_limits (dc_env d)) 4 = Ok ul) by (rewrite Li; reflexivity). assert (I5 : item (en_limits (dc_env d)) 5 = Ok uel) by (rewrite Li; reflexivity).
  pose proof (exc_cascade_gains t d a wl il iel ul uel la le T' S I0 I2 I3 I4 I5 La Le) as G. cbv zeta in G.
  destruct (dc_access d).
  - destruct (exc_cascade_made t d a _ _ _ T' S G eq_refl eq_refl eq_refl) as (c & e & M & St & E1 & E2). cbn in St, E2. injection St as St. injection E2 as E2. exists c, e. do 3 eexists. split; [exact M|]. split; [symmetry; exact St|]. split; [exact E1|]. split; [symmetry; exact E2|]. cbn. repeat split; reflexivity.
  - destruct (exc_cascade_made t d a _ _ _ T' S G eq_refl eq_refl eq_refl) as (c & e & M & St & E1 & E2). cbn in St, E2. injection St as St. injection E2 as E2. exists c, e. do 3 eexists. split; [exact M|]. split; [symmetry; exact St|]. split; [exact E1|]. split; [symmetry; exact E2|]. cbn. repeat split; reflexivity.
  - destruct (exc_cascade_made t d a _ _ _ T' S G eq_refl eq_refl eq_refl) as (c & e & M & St & E1 & E2). cbn in St, E2. injection St as St. injection E2 as E2. exists c, e. do 3 eexists. split; [exact M|]. split; [symmetry; exact St|]. split; [exact E1|]. split; [symmetry; exact E2|]. cbn. repeat split; reflexivity.
Qed.
Print Assumptions extex_cascade_gains_refuted.
(** Non-vacuity: with all parameters one and a sampling time of 1 ms the excitation controller
    of a wrapped environment has the proportional gain 15.625 instead of 250. *)
Example extex_gains_example : forall p, In p presets -> pr_id p = env_id false SpeedControl ExtExDc ->
  exists c1 e1 b1 c2 e2 b2, make (sample p Bare) None 4 true = Some (Ok (MCasc c1)) /\ cc_exc c1 = Some e1 /\ cx_ctl e1 = BPi b1 /\ pi_p b1 = 250 /\
    make (sample p Forwarding) None 4 true = Some (Ok (MCasc c2)) /\ cc_exc c2 = Some e2 /\ cx_ctl e2 = BPi b2 /\ pi_p b2 = 125 / 8.
Proof.
  intros p Ip Id. destruct presets_fit_their_ids as (G & _).
  assert (M : pr_motor p = ExtExDc).
  { destruct (G p Ip) as (f1 & t1 & m1 & I1 & F1). rewrite Id in I1. pose proof (parse_env_id false SpeedControl ExtExDc) as P1. rewrite I1, parse_env_id in P1. injection P1 as -> -> ->. apply (fit_motor _ _ _ _ F1). }
  assert (D : is_dc (pr_motor p) = true) by (rewrite M; reflexivity).
  assert (Li : map (fun _ : string => 1) (all_names p) = [1; 1; 1; 1; 1; 1; 1]) by (destruct (wrappers_of p Ip D) as [-> _]; rewrite M; reflexivity).
  assert (K : forall acc, en_limits (dc_env (sample p acc)) = [1; nth 1 (en_limits (dc_env (sample p acc))) 0; 1; 1; 1; 1; nth 6 (en_limits (dc_env (sample p acc))) 0]) by (intros acc; cbn [sample dc_env en_limits]; rewrite Li; reflexivity).
  destruct (extex_cascade_gains_refuted SpeedControl p (sample p Bare) 4 1 1 1 1 1 1 1 ltac:(discriminate) Ip Id (sample_fits p Bare Ip D) ltac:(lra) (K Bare) eq_refl eq_refl) as (c1 & e1 & x0 & x1 & xe & M1 & _ & E1 & C1 & _ & _ & _ & _ & P1 & _).
  destruct (extex_cascade_gains_refuted SpeedControl p (sample p Forwarding) 4 1 1 1 1 1 1 1 ltac:(discriminate) Ip Id (sample_fits p Forwarding Ip D) ltac:(lra) (K Forwarding) eq_refl eq_refl) as (c2 & e2 & y0 & y1 & ye & M2 & _ & E2 & C2 & _ & _ & _ & _ & P2 & _).
  exists c1, e1, xe, c2, e2, ye. repeat (split; [assumption|]). split; [rewrite P1; cbn; lra|]. repeat (split; [assumption|]). rewrite P2. cbn. lra.
Qed.

(** ** C161 Stages given by the user.  Passing the stages of the automatic design gives the same
    result as the automatic design, for all DC motors but the shunt motor. *)
Theorem explicit_design_equals_automatic : forall f t m p d a auto name ss, In p presets -> pr_id p = env_id f t m -> is_dc m = true -> m <> ShuntDc -> dc_of p d ->
  dc_design d = Ok (name, ss) -> make d (Some (UStages ss)) a auto = make d None a auto.
Proof.
  intros f t m p d a auto name ss Ip Id D X O Ds. pose proof (shape_of _ _ _ _ _ Ip Id D O) as S.
  assert (W : dc_wrapped d = false) by (rewrite (sh_wrapped _ _ _ _ S); destruct m; try reflexivity; contradiction). unfold make. rewrite Ds. unfold dc_find. rewrite W.
  assert (K : (name, ss) = (match t with CurrentControl => st_type (out f) | _ => "cascaded_controller" end, match t, m with CurrentControl, ExtExDc => SPair [out f] [out f] | CurrentControl, _ => SList [out f] | _, ExtExDc => SPair [out f; pi_stage] [out f] | _, _ => SList [out f; pi_stage] end)).
  { destruct t; [pose proof (design_cascade SpeedControl f m d D eq_refl S) as E|pose proof (design_cascade TorqueControl f m d D eq_refl S) as E|pose proof (design_current _ _ _ D S) as E]; rewrite Ds in E; injection E as -> ->; destruct m; reflexivity. }
  injection K as -> ->. destruct t, m; try discriminate D; try contradiction; destruct f; reflexivity.
Qed.
Print Assumptions explicit_design_equals_automatic.
(** The physical system of the shunt motor environments is wrapped by a CurrentSumProcessor, so
    no branch of [find_controller_type] applies: whatever the user gives, [make] raises. *)
Theorem shunt_user_stages_refuted : forall f t p d u a auto, In p presets -> pr_id p = env_id f t ShuntDc -> dc_of p d ->
  make d (Some u) a auto = Some (Err (match dc_access d with Opaque => AttributeError | _ => PlainException end)).
Proof.
  intros f t p d u a auto Ip Id O. pose proof (shape_of _ _ _ _ _ Ip Id eq_refl O) as S. unfold make, dc_find. rewrite (sh_wrapped _ _ _ _ S). destruct (dc_access d); reflexivity.
Qed.
Print Assumptions shunt_user_stages_refuted.
Example explicit_design_example : exists p q ss, In p presets /\ In q presets /\ pr_id p = env_id true TorqueControl SeriesDc /\ pr_id q = env_id true TorqueControl ShuntDc /\
  dc_design (sample p Bare) = Ok ("cascaded_controller", ss) /\ dc_design (sample q Bare) = Ok ("cascaded_controller", ss) /\
  (exists c, make (sample p Bare) (Some (UStages ss)) 4 true = Some (Ok c)) /\ make (sample q Bare) (Some (UStages ss)) 4 true = Some (Err PlainException).
Proof.
  exists pr_Finite_TC_SeriesDc_v0, pr_Finite_TC_ShuntDc_v0, (SList [out true; pi_stage]).
  assert (I1 : In pr_Finite_TC_SeriesDc_v0 presets) by (unfold presets; cbn; tauto). assert (I2 : In pr_Finite_TC_ShuntDc_v0 presets) by (unfold presets; cbn; tauto).
  split; [exact I1|]. split; [exact I2|]. split; [reflexivity|]. split; [reflexivity|]. split; [reflexivity|]. split; [reflexivity|].
  pose proof (sample_fits _ Bare I1 eq_refl) as O1. pose proof (sample_fits _ Bare I2 eq_refl) as O2. split.
  - rewrite (explicit_design_equals_automatic true TorqueControl SeriesDc _ (sample pr_Finite_TC_SeriesDc_v0 Bare) 4 true "cascaded_controller" (SList [out true; pi_stage]) I1 eq_refl eq_refl ltac:(discriminate) O1 eq_refl).
    destruct (automatic_dc_design_verdict true TorqueControl SeriesDc _ _ 4 I1 eq_refl eq_refl O1 ltac:(lra)) as (c & E & _). exists c. exact E.
  - apply (shunt_user_stages_refuted true TorqueControl _ _ (UStages (SList [out true; pi_stage])) 4 true I2 eq_refl O2).
Qed.

(** ** C162 The automatic tuning keeps the stages, their types and every parameter that is given,
    and adds only gains. *)
Theorem tuning_keeps_given : forall d a k ss ss', dc_gain d a k ss = Ok ss' -> stages_extend ss ss'.
Proof. exact dc_gain_extends. Qed.
Print Assumptions tuning_keeps_given.
(** Each stage of a cascade should get gains of its own; from the third on they all get those of
    the second. *)
Theorem third_stage_gains_refuted : forall d a m n, read_lims d = Ok m -> en_extex (dc_env d) = false ->
  exists p0 i0 p1 i1, dc_gain d a KCasc (SList (repeat pi_stage (2 + n))) = Ok (SList (tuned p0 i0 :: repeat (tuned p1 i1) (1 + n))) /\
    p0 = lm_l m / (en_tau (dc_env d) * a) / lm_ua m * lm_ia m /\ p1 = dc_j d / (a * (en_tau (dc_env d) * (a * a))) / lm_ia m * lm_omega m.
Proof.
  intros d a m n Rm Ex. assert (Ty : typed d = false) by (unfold typed; rewrite Ex; destruct (dc_access d); reflexivity). unfold dc_gain. rewrite Rm. cbn [bind]. unfold split_stages. rewrite Ty. cbn [bind]. rewrite repeat_length. cbn [Nat.add repeat casc_loop]. do 4 eexists. split; [|split; reflexivity].
  cbn [casc_gains pi_stage st_type stage_class existsb String.eqb Ascii.eqb Bool.eqb orb bind is_pid andb Nat.eqb fst snd]. rewrite loop_tail by lia. reflexivity.
Qed.
Print Assumptions third_stage_gains_refuted.
(** Non-vacuity: a given gain is kept, the other one is computed. *)
Example tuning_example : exists ss', dc_gain (sample pr_Cont_SC_PermExDc_v0 Bare) 4 KCasc (SList [{| st_type := "pi_controller"; st_par := [("i_gain", 7)] |}; pi_stage]) = Ok (SList ss') /\
  match ss' with s :: _ => dict_get "i_gain" (st_par s) = Some 7 /\ dict_get "p_gain" (st_par s) <> None | [] => False end.
Proof. eexists. split; [lazy; reflexivity|]. cbn. split; [reflexivity|discriminate]. Qed.
