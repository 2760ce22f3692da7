(** Properties of the controllers of gem_controllers: C69 - C72. *)
From Verif Require Import PyBaseFacts PyDictFacts Transform_Model Transform_Proofs Conv_Model Wrap_Model Ctl_Model Ctl_Model2 Ctl_Spec Ctl_Proofs Ctl_Proofs2 Ctl_Props.
Local Open Scope string_scope. Local Open Scope list_scope. Local Open Scope R_scope.

Lemma list_set_app {A} (l : list A) x v m : list_set (length l) v (l ++ x :: m) = l ++ v :: m.
Proof. induction l as [|y l IH]; [reflexivity|]. cbn [length app list_set]. rewrite IH. reflexivity. Qed.
Lemma load_app h m p : (p < length h)%nat -> load (h ++ m) p = load h p.
Proof. intros H. unfold load. apply app_nth1. exact H. Qed.
Lemma load_mid h x m : load (h ++ x :: m) (length h) = x.
Proof. unfold load. rewrite app_nth2, Nat.sub_diag by lia. reflexivity. Qed.

(** ** C69 Inputs of [control] *)
(** The arrays of the caller are not changed, and the stages get state and reference in
    physical units and nothing else. *)
Theorem control_inputs :
  forall O (op : ops O) k h ps pr, (ps < length h)%nat -> (pr < length h)%nat -> length (load h ps) = length (ad_slim k) -> length (load h pr) = length (ad_rlim k) ->
  let (c, u) := inner_control op (ad_in k) (map2 Rmult (load h ps) (ad_slim k)) (map2 Rmult (load h pr) (ad_rlim k)) in
  exists h', adapter_control op k h ps pr = ((ad_upd k c, h'), do v <- u; out_call (ad_out k) v) /\ forall p, (p < length h)%nat -> load h' p = load h p.
Proof.
  intros O op k h ps pr Hps Hpr Hs Hr. destruct (inner_control op (ad_in k) _ _) as [c u] eqn:E. unfold adapter_control, np_copy, input_call. rewrite (load_app h [load h ps] pr Hpr). rewrite <- app_assoc. cbn [app]. rewrite load_mid. rewrite np_bin_eq by exact Hs. rewrite map2_len by exact Hs. rewrite Nat.eqb_refl.
  rewrite list_set_app, load_mid. set (s' := map2 Rmult (load h ps) (ad_slim k)) in *. replace (load (h ++ [s'; load h pr]) (length (h ++ [load h ps]))) with (load h pr).
  - rewrite np_bin_eq by exact Hr. rewrite E. eexists. split; [reflexivity|]. intros p Hp. apply load_app. exact Hp.
  - replace (h ++ [s'; load h pr]) with ((h ++ [s']) ++ [load h pr]) by (rewrite <- app_assoc; reflexivity). replace (length (h ++ [load h ps])) with (length (h ++ [s'])) by (rewrite !app_length; reflexivity). rewrite load_mid. reflexivity.
Qed.
Print Assumptions control_inputs.

(** The input stage by itself does overwrite the array it is given; only the copies in
    [control] protect the caller. *)
Theorem input_stage_keeps_state_refuted :
  exists slim rlim h ps pr h' r, input_call slim rlim h ps pr = (h', Ok r) /\ load h' ps <> load h ps.
Proof.
  exists [2], [1], [[3]; [1]], 0%nat, 1%nat. do 2 eexists. split; [reflexivity|]. cbn. intros E. injection E as E. lra.
Qed.
Print Assumptions input_stage_keeps_state_refuted.

(** ** C70 [control_environment] *)
Section Environment.
Context {E K X A : Type}.
Variables (env : @cenviron E X A) (ctl : @controller K X A).
Lemma long_enough_false M len : long_enough (Some M) len = false -> (len < M)%Z.
Proof. cbn. intros H. apply Z.leb_gt. exact H. Qed.
(** Head and tail of [lengths] of the log from a point where [len] steps are counted. *)
Lemma iterate_lengths M n : forall e k x len e' k' evs r, (0 <= len)%Z -> iterate env ctl (Some M) n e k x len = ((e', k', evs), r) ->
  exists h t, lengths evs = h :: t /\ (Z.of_nat h <= Z.max 1 (M - len + 1))%Z /\ Forall (fun j => (Z.of_nat j <= Z.max 1 M)%Z) t.
Proof.
  induction n as [|n IH]; intros e k x len e' k' evs r Hl H; cbn [iterate] in H.
  - injection H as <- <- <- <-. exists O, []. split; [reflexivity|]. split; [lia|constructor].
  - destruct (k_control ctl k x) as [k1 a0]. destruct a0 as [a|err].
    2:{ injection H as <- <- <- <-. exists O, []. split; [reflexivity|]. split; [lia|constructor]. }
    destruct (v_step env e a) as [e1 r0]. destruct r0 as [[[x1 te] tr]|err].
    2:{ injection H as <- <- <- <-. exists 1%nat, []. split; [reflexivity|]. split; [lia|constructor]. }
    destruct (te || tr || long_enough (Some M) len) eqn:Et.
    + destruct (v_reset env e1) as [e2 y0]. destruct y0 as [x2|err].
      2:{ injection H as <- <- <- <-. exists 1%nat, [O]. split; [reflexivity|]. split; [lia|constructor; [lia|constructor]]. }
      destruct (iterate env ctl (Some M) n e2 (k_reset ctl k1) x2 1) as [[[e3 k3] l] r'] eqn:Ei. injection H as <- <- <- <-. destruct (IH _ _ _ 1%Z _ _ _ _ ltac:(lia) Ei) as (h & t & El & Hh & Ht).
      exists 1%nat, (h :: t). cbn [lengths]. rewrite El. split; [reflexivity|]. split; [lia|]. constructor; [lia|exact Ht].
    + apply orb_false_iff in Et. destruct Et as [_ Et]. apply long_enough_false in Et. destruct (iterate env ctl (Some M) n e1 k1 x1 (len + 1)) as [[[e3 k3] l] r'] eqn:Ei. injection H as <- <- <- <-. destruct (IH _ _ _ (len + 1)%Z _ _ _ _ ltac:(lia) Ei) as (h & t & El & Hh & Ht).
      exists (Datatypes.S h), t. cbn [lengths]. rewrite El. split; [reflexivity|]. split; [lia|exact Ht].
Qed.
Lemma iterate_steps max n : forall e k x len e' k' evs r, iterate env ctl max n e k x len = ((e', k', evs), r) -> (steps evs <= n)%nat /\ (r = Ok tt -> steps evs = n /\ resets_paired evs = true).
Proof.
  induction n as [|n IH]; intros e k x len e' k' evs r H; cbn [iterate] in H.
  - injection H as <- <- <- <-. split; [cbn; lia|]. intros _. split; reflexivity.
  - destruct (k_control ctl k x) as [k1 a0]. destruct a0 as [a|err]; [|injection H as <- <- <- <-; split; [cbn; lia|discriminate]].
    destruct (v_step env e a) as [e1 r0]. destruct r0 as [[[x1 te] tr]|err]; [|injection H as <- <- <- <-; split; [cbn; lia|discriminate]].
    destruct (te || tr || long_enough max len).
    + destruct (v_reset env e1) as [e2 y0]. destruct y0 as [x2|err]; [|injection H as <- <- <- <-; split; [cbn; lia|discriminate]].
      destruct (iterate env ctl max n e2 (k_reset ctl k1) x2 1) as [[[e3 k3] l] r'] eqn:Ei. injection H as <- <- <- <-. destruct (IH _ _ _ _ _ _ _ _ Ei) as [H1 H2]. split; [cbn; unfold steps in H1; lia|]. intros Hr. destruct (H2 Hr) as [H3 H4]. split; [cbn; unfold steps in H3; lia|exact H4].
    + destruct (iterate env ctl max n e1 k1 x1 (len + 1)) as [[[e3 k3] l] r'] eqn:Ei. injection H as <- <- <- <-. destruct (IH _ _ _ _ _ _ _ _ Ei) as [H1 H2]. split; [cbn; unfold steps in H1; lia|]. intros Hr. destruct (H2 Hr) as [H3 H4]. split; [cbn; unfold steps in H3; lia|exact H4].
Qed.
End Environment.

(** Without an exception exactly [n] steps are made, with one reset of the environment and of
    the controller before each episode. *)
Theorem control_environment_steps :
  forall E K X A (env : @cenviron E X A) (ctl : @controller K X A) n max e k e' k' evs, control_environment env ctl n max e k = ((e', k', evs), Ok tt) ->
  steps evs = n /\ resets_paired evs = true /\ exists l, evs = EvReset :: EvCReset :: l.
Proof.
  intros E K X A env ctl n max e k e' k' evs H. unfold control_environment in H. destruct (v_reset env e) as [e1 x0]. destruct x0 as [x|err]; [|discriminate]. destruct (iterate env ctl max n e1 (k_reset ctl k) x 0) as [[[e2 k2] l] r] eqn:Ei. injection H as <- <- <- ->.
  destruct (iterate_steps env ctl max n _ _ _ _ _ _ _ _ Ei) as [_ H2]. destruct (H2 eq_refl) as [H3 H4]. split; [exact H3|]. split; [exact H4|]. exists l. reflexivity.
Qed.
Print Assumptions control_environment_steps.

(** The first episode has at most M + 1 steps, the later ones at most M (or 1, if M < 1). *)
Theorem episode_length_bound :
  forall E K X A (env : @cenviron E X A) (ctl : @controller K X A) n M e k e' k' evs r, control_environment env ctl n (Some M) e k = ((e', k', evs), r) ->
  exists first later, episode_lengths evs = first :: later /\ (Z.of_nat first <= Z.max 1 (M + 1))%Z /\ Forall (fun j => (Z.of_nat j <= Z.max 1 M)%Z) later.
Proof.
  intros E K X A env ctl n M e k e' k' evs r H. unfold control_environment in H. destruct (v_reset env e) as [e1 x0]. destruct x0 as [x|err].
  - destruct (iterate env ctl (Some M) n e1 (k_reset ctl k) x 0) as [[[e2 k2] l] r'] eqn:Ei. injection H as <- <- <- <-. destruct (iterate_lengths env ctl M n _ _ _ 0%Z _ _ _ _ ltac:(lia) Ei) as (h & t & El & Hh & Ht). exists h, t. unfold episode_lengths. cbn [lengths tl]. rewrite El. split; [reflexivity|]. split; [lia|exact Ht].
  - injection H as <- <- <- <-. exists O, []. split; [reflexivity|]. split; [lia|constructor].
Qed.
Print Assumptions episode_length_bound.

(** The bound is met: an environment that never ends an episode is cut after M + 1 steps the
    first time, for every M >= 0 -- one step too late. *)
Definition endless : @cenviron nat nat unit := {| v_reset := fun e => (e, Ok e); v_step := fun e _ => (Datatypes.S e, Ok (Datatypes.S e, false, false)) |}.
Definition idle : @controller unit nat unit := {| k_control := fun k _ => (k, Ok tt); k_reset := fun k => k |}.
Lemma endless_run M j : forall n e len, (Z.of_nat M <= len + Z.of_nat j)%Z -> (len + Z.of_nat j < Z.of_nat M + 1)%Z -> (0 <= len)%Z -> (j < n)%nat ->
  exists e' k' evs t, iterate endless idle (Some (Z.of_nat M)) n e tt e len = ((e', k', evs), Ok tt) /\ lengths evs = Datatypes.S j :: t.
Proof.
  assert (T : forall n e len, exists e' k' evs, iterate endless idle (Some (Z.of_nat M)) n e tt e len = ((e', k', evs), Ok tt)).
  { induction n as [|n IH]; intros e len; cbn [iterate]; [do 3 eexists; reflexivity|]. cbn [idle k_control endless v_step v_reset k_reset orb]. destruct (long_enough (Some (Z.of_nat M)) len).
    - destruct (IH (Datatypes.S e) 1%Z) as (e' & k' & evs & Q). first [rewrite Q|setoid_rewrite Q|unfold endless, idle in Q; rewrite Q]. do 3 eexists. reflexivity.
    - destruct (IH (Datatypes.S e) (len + 1)%Z) as (e' & k' & evs & Q). first [rewrite Q|setoid_rewrite Q|unfold endless, idle in Q; rewrite Q]. do 3 eexists. reflexivity. }
  induction j as [|j IH]; intros n e len H1 H2 H3 Hn; destruct n as [|n]; try lia; cbn [iterate]; cbn [idle k_control endless v_step v_reset k_reset orb long_enough].
  - destruct (Z.leb_spec (Z.of_nat M) len); [|lia]. destruct (T n (Datatypes.S e) 1%Z) as (e' & k' & evs & Q). first [rewrite Q|setoid_rewrite Q|unfold endless, idle in Q; rewrite Q]. do 3 eexists. exists (lengths evs). split; reflexivity.
  - destruct (Z.leb_spec (Z.of_nat M) len); [lia|]. destruct (IH n (Datatypes.S e) (len + 1)%Z ltac:(lia) ltac:(lia) ltac:(lia) ltac:(lia)) as (e' & k' & evs & t & Q & L). first [rewrite Q|setoid_rewrite Q|unfold endless, idle in Q; rewrite Q]. do 3 eexists. exists t. split; [reflexivity|]. cbn [lengths]. rewrite L. reflexivity.
Qed.
Theorem episode_length_respected_refuted :
  forall M n, (M < n)%nat -> exists E K X A (env : @cenviron E X A) (ctl : @controller K X A) e k e' k' evs later,
  control_environment env ctl n (Some (Z.of_nat M)) e k = ((e', k', evs), Ok tt) /\ episode_lengths evs = Datatypes.S M :: later.
Proof.
  intros M n Hn. exists nat, unit, nat, unit, endless, idle, O, tt. destruct (endless_run M M n O 0%Z ltac:(lia) ltac:(lia) ltac:(lia) Hn) as (e' & k' & evs & t & Q & L). unfold control_environment. cbn [endless v_reset idle k_reset]. first [rewrite Q|setoid_rewrite Q|unfold endless, idle in Q; rewrite Q]. do 3 eexists. exists t. split; [reflexivity|]. unfold episode_lengths. cbn [lengths tl]. exact L.
Qed.
Print Assumptions episode_length_respected_refuted.
Example episode_lengths_example : exists e k evs, control_environment endless idle 8 (Some 2%Z) O tt = ((e, k, evs), Ok tt) /\ episode_lengths evs = [3; 2; 2; 1]%nat.
Proof. do 3 eexists. split; reflexivity. Qed.

(** ** C71 Documented base controllers *)
Definition the_ops : ops unit := {| o_call := fun o _ r => (o, Ok r); o_tune := fun o _ _ _ => Ok o; o_reset := fun o => o |}.
Definition unit_ops (_ : string) : res unit := Ok tt.
(** What a successful [make] contains. *)
Lemma gem_make_inv {O} (op : ops O) new_ops e id dec margin bcur bspd a ad t : gem_make op new_ops e id dec margin bcur bspd a = Ok ad -> control_task id = Ok t ->
  exists cc cc' kc, cc_new id bcur dec = Ok cc /\ base_get bcur = Ok kc /\ cc_base cc = base_new kc CC /\ cc_tune cc e id a = Ok cc' /\
  ((t = "TC" \/ t = "SC") -> exists m o tc tc', motor_type id = Ok m /\ tc_new cc o id = Ok tc /\ tc_tune op tc e id margin a = Ok tc' /\ tc_cc tc' = cc' /\
     (t = "SC" -> exists sc sc' ks, base_get bspd = Ok ks /\ sc_base sc = base_new ks SC /\ sc_tc sc = tc /\ sc_tune op sc e id margin a = Ok sc')).
Proof.
  intros H Ht. unfold gem_make in H. rewrite Ht in H. cbn [bind] in H. apply bind_ok in H. destruct H as (cc & Ec & H). pose proof Ec as Ec0. unfold cc_new in Ec. apply bind_ok in Ec. destruct Ec as (m & Em & Ec). apply bind_ok in Ec. destruct Ec as (kc & Ek & Ec). injection Ec as Ec.
  assert (Hb : cc_base cc = base_new kc CC) by (rewrite <- Ec; reflexivity). apply bind_ok in H. destruct H as (kk & Ekk & H). apply bind_ok in H. destruct H as (ad0 & Ead & H). unfold adapter_new in Ead. apply bind_ok in Ead. destruct Ead as (at_ & _ & Ead). injection Ead as <-.
  unfold adapter_tune in H. apply bind_ok in H. destruct H as (ri & _ & H). apply bind_ok in H. destruct H as (rl & _ & H). apply bind_ok in H. destruct H as (o & _ & H). apply bind_ok in H. destruct H as (inn & Ein & _). cbn [ad_in] in Ein.
  destruct (str_in t ["TC"; "SC"]) eqn:Es.
  - apply bind_ok in Ekk. destruct Ekk as (m' & Em' & Ekk). apply bind_ok in Ekk. destruct Ekk as (oo & Eo & Ekk). apply bind_ok in Ekk. destruct Ekk as (tc & Etc & Ekk). destruct (String.eqb_spec t "SC") as [ET|ET].
    + apply bind_ok in Ekk. destruct Ekk as (sc & Esc & Ekk). injection Ekk as <-. cbn [inner_tune] in Ein. apply bind_ok in Ein. destruct Ein as (sc' & Esct & _). unfold sc_new in Esc. apply bind_ok in Esc. destruct Esc as (ks & Eks & Esc). injection Esc as Esc.
      pose proof Esct as Esct0. unfold sc_tune in Esct. apply bind_ok in Esct. destruct Esct as (tc' & Etc' & _). assert (HT : sc_tc sc = tc) by (rewrite <- Esc; reflexivity). rewrite HT in Etc'.
      pose proof Etc' as Etc0. unfold tc_tune in Etc'. apply bind_ok in Etc'. destruct Etc' as (cc' & Ecc' & Etc'). assert (HC : tc_cc tc = cc) by (unfold tc_new in Etc; apply bind_ok in Etc; destruct Etc as (? & _ & Etc); injection Etc as <-; reflexivity). rewrite HC in Ecc'.
      exists cc, cc', kc. repeat (split; [assumption|]). intros _. exists m', oo, tc, tc'. repeat (split; [assumption|]). split; [repeat (apply bind_ok in Etc'; destruct Etc' as (? & _ & Etc')); injection Etc' as <-; reflexivity|]. intros _. exists sc, sc', ks. split; [exact Eks|]. split; [rewrite <- Esc; reflexivity|]. split; assumption.
    + injection Ekk as <-. cbn [inner_tune] in Ein. apply bind_ok in Ein. destruct Ein as (tc' & Etc' & _). pose proof Etc' as Etc0. unfold tc_tune in Etc'. apply bind_ok in Etc'. destruct Etc' as (cc' & Ecc' & Etc'). assert (HC : tc_cc tc = cc) by (unfold tc_new in Etc; apply bind_ok in Etc; destruct Etc as (? & _ & Etc); injection Etc as <-; reflexivity). rewrite HC in Ecc'.
      exists cc, cc', kc. repeat (split; [assumption|]). intros _. exists m', oo, tc, tc'. repeat (split; [assumption|]). split; [repeat (apply bind_ok in Etc'; destruct Etc' as (? & _ & Etc')); injection Etc' as <-; reflexivity|]. intros E; contradiction.
  - injection Ekk as <-. cbn [inner_tune] in Ein. apply bind_ok in Ein. destruct Ein as (cc' & Ecc' & _). exists cc, cc', kc. repeat (split; [assumption|]). intros [-> | ->]; discriminate Es.
Qed.

(** Speed control with the documented base controllers "P" and "PID" cannot be built, and with
    "ThreePoint" only if a state is called "reference". *)
Theorem documented_speed_controllers_refuted :
  forall O (op : ops O) new_ops e id dec margin bcur bspd a ad, control_task id = Ok "SC" -> bspd = "P" \/ bspd = "PID" \/ (bspd = "ThreePoint" /\ ~ In "reference" (ce_names e)) ->
  gem_make op new_ops e id dec margin bcur bspd a <> Ok ad.
Proof.
  intros O op new_ops e id dec margin bcur bspd a ad Ht Hb H. destruct (gem_make_inv op _ _ _ _ _ _ _ _ _ _ H Ht) as (cc & cc' & kc & _ & _ & _ & _ & HS). destruct (HS (or_intror eq_refl)) as (m & o & tc & tc' & _ & _ & _ & _ & HS2). destruct (HS2 eq_refl) as (sc & sc' & ks & Eks & Eb & _ & Es).
  unfold sc_tune in Es. apply bind_ok in Es. destruct Es as (tc1 & _ & Es). apply bind_ok in Es. destruct Es as (w & _ & Es). apply bind_ok in Es. destruct Es as (cl & _ & Es). apply bind_ok in Es. destruct Es as (m1 & _ & Es). apply bind_ok in Es. destruct Es as (tn & _ & Es). apply bind_ok in Es. destruct Es as (b & Ebt & _). rewrite Eb in Ebt.
  destruct Hb as [-> | [-> | [-> Hn]]]; injection Eks as <-; cbn [base_tune_kw base_new b_kind] in Ebt.
  - discriminate.
  - unfold pi_tune in Ebt. cbn [base_new b_kind b_task] in Ebt. apply bind_ok in Ebt. destruct Ebt as (b1 & E1 & _). unfold pi_tune_speed in E1. apply bind_ok in E1. destruct E1 as (b2 & _ & E1). discriminate.
  - unfold three_tune in Ebt. cbn [base_new b_task] in Ebt. apply bind_ok in Ebt. destruct Ebt as (ti & Ei & _). apply str_index_ok in Ei. apply Hn. apply nth_error_In with (1 := Ei).
Qed.
Print Assumptions documented_speed_controllers_refuted.
Example documented_speed_controllers_example : gem_make the_ops unit_ops dc_env "Cont-SC-PermExDc-v0" true (1 / 10) "PI" "P" 4 = Err TypeError /\ gem_make the_ops unit_ops dc_env "Cont-SC-PermExDc-v0" true (1 / 10) "PI" "PID" 4 = Err TypeError /\
  gem_make the_ops unit_ops dc_env "Cont-SC-PermExDc-v0" true (1 / 10) "PI" "ThreePoint" 4 = Err ValueError /\ exists ad, gem_make the_ops unit_ops dc_env "Cont-SC-PermExDc-v0" true (1 / 10) "PI" "PI" 4 = Ok ad.
Proof. split; [reflexivity|]. split; [reflexivity|]. split; [reflexivity|]. eexists. reflexivity. Qed.

(** The base controllers "ThreePoint" and "I" cannot be used for the currents, whatever the task. *)
Theorem documented_current_controllers_refuted :
  forall O (op : ops O) new_ops e id dec margin bcur bspd a ad t, control_task id = Ok t -> bcur = "ThreePoint" \/ bcur = "I" -> gem_make op new_ops e id dec margin bcur bspd a <> Ok ad.
Proof.
  intros O op new_ops e id dec margin bcur bspd a ad t Ht Hb H. destruct (gem_make_inv op _ _ _ _ _ _ _ _ _ _ H Ht) as (cc & cc' & kc & _ & Ek & Eb & Ec & _).
  unfold cc_tune in Ec. apply bind_ok in Ec. destruct Ec as (at_ & _ & Ec). apply bind_ok in Ec. destruct Ec as (m & _ & Ec). apply bind_ok in Ec. destruct Ec as (ab & _ & Ec). apply bind_ok in Ec. destruct Ec as (ef & _ & Ec). apply bind_ok in Ec. destruct Ec as (b & Ebt & _). rewrite Eb in Ebt.
  destruct Hb as [-> | ->]; injection Ek as <-; discriminate Ebt.
Qed.
Print Assumptions documented_current_controllers_refuted.
Definition dc_finite : cenv :=
  {| ce_names := ce_names dc_env; ce_limits := ce_limits dc_env; ce_low := ce_low dc_env; ce_high := ce_high dc_env; ce_refs := ce_refs dc_env; ce_tau := ce_tau dc_env; ce_par := ce_par dc_env; ce_j := ce_j dc_env; ce_act := SDisc 4; ce_b6 := false; ce_dead := Some false |}.
Example documented_current_controllers_example : gem_make the_ops unit_ops dc_finite "Finite-CC-PermExDc-v0" true (1 / 10) "ThreePoint" "PI" 4 = Err TypeError /\ gem_make the_ops unit_ops dc_env "Cont-CC-PermExDc-v0" true (1 / 10) "ThreePoint" "PI" 4 = Err TypeError.
Proof. split; reflexivity. Qed.

(** Torque and speed control of PMSM, SynRM and SCIM cannot be built at all: the squared
    clipping stage announces an empty action range, which the torque controller indexes. *)
Theorem ac_torque_control_refuted :
  forall O (op : ops O) new_ops e id dec margin bcur bspd a ad t m, control_task id = Ok t -> t = "TC" \/ t = "SC" -> motor_type id = Ok m -> m = "PMSM" \/ m = "SynRM" \/ m = "SCIM" ->
  gem_make op new_ops e id dec margin bcur bspd a <> Ok ad.
Proof.
  intros O op new_ops e id dec margin bcur bspd a ad t m Ht Hk Hm Hc H. destruct (gem_make_inv op _ _ _ _ _ _ _ _ _ _ H Ht) as (cc & cc' & kc & _ & _ & _ & _ & HS). destruct (HS Hk) as (m' & o & tc & tc' & Em & En & Et & _). rewrite Hm in Em. injection Em as <-.
  assert (Hs : tc_clip tc = sq_new TC). { unfold tc_new in En. rewrite Hm in En. cbn [bind] in En. injection En as <-. destruct Hc as [-> | [-> | ->]]; reflexivity. }
  unfold tc_tune in Et. apply bind_ok in Et. destruct Et as (c1 & _ & Et). apply bind_ok in Et. destruct Et as (cl & Ecl & Et). apply bind_ok in Et. destruct Et as (o1 & _ & Et). apply bind_ok in Et. destruct Et as (m1 & _ & Et). apply bind_ok in Et. destruct Et as (cur & _ & Et). rewrite Hs in Ecl.
  destruct (squared_clipping_margin_dropped _ _ _ _ _ Ecl) as [_ [lim El]]. unfold action_range in Et. rewrite El in Et. discriminate.
Qed.
Print Assumptions ac_torque_control_refuted.
Example ac_torque_control_example : gem_make the_ops unit_ops pmsm_env "Cont-TC-PMSM-v0" true (1 / 10) "PI" "PI" 4 = Err IndexError /\ gem_make the_ops unit_ops pmsm_env "Cont-SC-PMSM-v0" true (1 / 10) "PI" "PI" 4 = Err IndexError /\
  exists ad, gem_make the_ops unit_ops pmsm_env "Cont-CC-PMSM-v0" true (1 / 10) "PI" "PI" 4 = Ok ad.
Proof. split; [reflexivity|]. split; [reflexivity|]. eexists. reflexivity. Qed.

(** The doubly fed induction motor is in none of the tables, so no controller can be built for it. *)
Theorem dfim_controllers_refuted :
  forall O (op : ops O) new_ops e id dec margin bcur bspd a ad t, control_task id = Ok t -> motor_type id = Ok "DFIM" -> gem_make op new_ops e id dec margin bcur bspd a <> Ok ad.
Proof.
  intros O op new_ops e id dec margin bcur bspd a ad t Ht Hm H. destruct (gem_make_inv op _ _ _ _ _ _ _ _ _ _ H Ht) as (cc & cc' & kc & _ & Ek & Eb & Ec & _).
  unfold cc_tune in Ec. apply bind_ok in Ec. destruct Ec as (at_ & _ & Ec). rewrite Hm in Ec. cbn [bind] in Ec. apply bind_ok in Ec. destruct Ec as (ab & _ & Ec). apply bind_ok in Ec. destruct Ec as (ef & Ef & _). unfold emf_tune in Ef. apply bind_ok in Ef. destruct Ef as (g & Eg & _). unfold emf_tune_base in Eg. rewrite Hm in Eg. cbn [bind] in Eg. apply bind_ok in Eg. destruct Eg as (om & _ & Eg).
  apply bind_ok in Eg. destruct Eg as (names & En & _). discriminate En.
Qed.
Print Assumptions dfim_controllers_refuted.

(** A P controller for the current and speed control of a permanently excited DC motor: the
    time constant of the current loop has dimension 0 and cannot be iterated. *)
Theorem permex_p_speed_control_refuted :
  forall O (op : ops O) new_ops e id dec margin bspd a ad, control_task id = Ok "SC" -> motor_type id = Ok "PermExDc" -> gem_make op new_ops e id dec margin "P" bspd a <> Ok ad.
Proof.
  intros O op new_ops e id dec margin bspd a ad Ht Hm H. destruct (gem_make_inv op _ _ _ _ _ _ _ _ _ _ H Ht) as (cc & cc' & kc & _ & Ek & Eb & Ec & HS). injection Ek as <-. destruct (HS (or_intror eq_refl)) as (m & o & tc & tc' & _ & Etn & Ett & Ecc & HS2). destruct (HS2 eq_refl) as (sc & sc' & ks & Eks & _ & Esc & Es).
  unfold sc_tune in Es. apply bind_ok in Es. destruct Es as (tc1 & Et1 & Es). rewrite Esc, Ett in Et1. injection Et1 as <-. apply bind_ok in Es. destruct Es as (w & _ & Es). apply bind_ok in Es. destruct Es as (cl & _ & Es). rewrite Hm in Es. cbn [bind] in Es. apply bind_ok in Es. destruct Es as (tn & Etn' & _).
  unfold min_t_n in Etn'. apply bind_ok in Etn'. destruct Etn' as (l & _ & Etn'). rewrite Ecc in Etn'.
  assert (HK : b_kind (cc_base cc') = KP). { unfold cc_tune in Ec. repeat (apply bind_ok in Ec; destruct Ec as (? & ? & Ec)). injection Ec as <-. cbn [cc_base]. match goal with E : base_tune_pos _ _ _ _ = Ok _ |- _ => rewrite Eb in E; cbn [base_tune_pos base_new b_kind] in E; unfold p_tune in E; cbn [base_new b_task] in E; unfold p_tune_current in E; repeat (apply bind_ok in E; destruct E as (? & ? & E)); injection E as <- end. reflexivity. }
  rewrite HK in Etn'. discriminate.
Qed.
Print Assumptions permex_p_speed_control_refuted.
Example permex_p_speed_control_example : gem_make the_ops unit_ops dc_env "Cont-SC-PermExDc-v0" true (1 / 10) "P" "PI" 4 = Err TypeError /\ exists ad, gem_make the_ops unit_ops dc_env "Cont-TC-PermExDc-v0" true (1 / 10) "P" "PI" 4 = Ok ad.
Proof. split; [reflexivity|]. eexists. reflexivity. Qed.

(** C68 on a complete controller: at standstill the step of the reference to the current limit
    gives an action far outside the action space. *)
Example action_outside_space : exists ad y, gem_make the_ops unit_ops dc_env "Cont-CC-PermExDc-v0" true (1 / 10) "PI" "PI" 4 = Ok ad /\
  snd (adapter_control the_ops (adapter_reset the_ops ad) [[0; 0; 0; 0; 1]; [1]] 0 1) = Ok (ABox [y]) /\ 20 < y /\ ~ action_valid (SBox 1) (ABox [y]).
Proof.
  do 2 eexists. split; [reflexivity|]. split; [reflexivity|]. match goal with |- 20 < ?y /\ _ => assert (H : 20 < y) end.
  - cbn. unfold dc_env. cbn [ce_tau]. rewrite Rmax_left; [lra|]. unfold Rdiv. repeat apply Rmult_le_pos; lra.
  - split; [exact H|]. intros [_ V]. apply Forall_cons_iff in V. destruct V as [V _]. lra.
Qed.
