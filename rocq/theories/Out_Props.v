(** C121: from the demanded voltage to the voltage at the motor (abc transformation, output stage, converter). *)
From Verif Require Import PyBase PyBaseFacts PyDict PyDictFacts Transform_Model Transform_Proofs Conv_Model Conv_Spec Conv_Proofs Conv_Proofs2 Conv_Props PhysSys_Model PhysSys_Props4 MotorLimit_Model MotorLimit_Props Wrap_Model Ctl_Model Ctl_Spec Ctl_Proofs Ctl_Proofs2 Ctl_Props Emf_Props.
Local Open Scope string_scope. Local Open Scope list_scope. Local Open Scope R_scope.

(** ** Output stage *)
(** The voltages that the converter of each motor puts out, in the order of its action. *)
Definition converter_voltages : list (string * list string) :=
  [("SeriesDc", ["u"]); ("ShuntDc", ["u"]); ("PermExDc", ["u"]); ("ExtExDc", ["u_a"; "u_e"]);
   ("PMSM", ["u_a"; "u_b"; "u_c"]); ("SynRM", ["u_a"; "u_b"; "u_c"]); ("SCIM", ["u_sa"; "u_sb"; "u_sc"]); ("DFIM", ["u_sa"; "u_sb"; "u_sc"]);
   ("EESM", ["u_a"; "u_b"; "u_c"; "u_sup"])].
(** Every action component is the demanded voltage divided by the limit of that voltage; the excitation voltage of the
    EESM is divided by the supply voltage. *)
Theorem output_stage_divides :
  forall e id m us lim u a, cont_tune e id = Ok lim -> motor_type id = Ok m -> In (m, us) converter_voltages ->
  length u = length us -> cont_call lim u = Ok a ->
  length a = length us /\
  forall k name, nth_error us k = Some name ->
  exists j, nth_error (ce_names e) j = Some name /\ (j < length (ce_limits e))%nat /\ comp k a = comp k u / comp j (ce_limits e).
Proof.
  intros e id m us lim u a Ht Hm Hin Lu Hc. unfold cont_tune in Ht. apply bind_ok in Ht. destruct Ht as (m' & Em & Ht). rewrite (id_parts _ _ Hm) in Em. injection Em as <-.
  assert (E : get_output_voltages m = Ok us). { cbn in Hin. repeat (destruct Hin as [H|Hin]; [injection H as <- <-; reflexivity|]). destruct Hin. }
  rewrite E in Ht. cbn [bind] in Ht. apply bind_ok in Ht. destruct Ht as (ui & Ei & Ht). pose proof (indices_length _ _ _ Ei) as Li. pose proof (select_length _ _ _ Ht) as Ll.
  unfold cont_call in Hc. destruct (np_bin_inv Rdiv u lim a (length us) Hc Lu ltac:(congruence)) as (La & Hk). split; [exact La|].
  intros k name Hn. assert (Kl : (k < length us)%nat) by (apply nth_error_Some; congruence). exists (nth k ui O). rewrite (Hk k Kl), (select_comp _ _ _ k Ht) by lia.
  assert (Q : forall us ui, indices e us = Ok ui -> forall k name, nth_error us k = Some name -> str_index name (ce_names e) = Ok (nth k ui O)).
  { clear. induction us as [|n us IH]; intros ui H k name Hk; [destruct k; discriminate|]. cbn [indices] in H. apply bind_ok in H. destruct H as (i & E1 & H). apply bind_ok in H. destruct H as (is & E2 & H). injection H as <-.
    destruct k as [|k]; [injection Hk as <-; exact E1|]. cbn [nth]. apply (IH is E2 k name Hk). }
  split; [apply str_index_ok, (Q us ui Ei k name Hn)|]. split; [|reflexivity].
  pose proof (select_bound _ _ _ Ht) as F. rewrite Forall_forall in F. apply F, nth_In. lia.
Qed.
Print Assumptions output_stage_divides.
Example output_stage_example : exists lim a, cont_tune pmsm_env "Cont-CC-PMSM-v0" = Ok lim /\ motor_type "Cont-CC-PMSM-v0" = Ok "PMSM" /\ In ("PMSM", ["u_a"; "u_b"; "u_c"]) converter_voltages /\ cont_call lim [30; -15; -15] = Ok a /\ comp 0 a = 1 / 2.
Proof. do 2 eexists. split; [reflexivity|]. split; [reflexivity|]. split; [cbn; tauto|]. split; [reflexivity|]. unfold comp. cbn. lra. Qed.

(** ** Voltage behind the converter *)
(** Action times gain is the share of the supply voltage at the output: a B6 bridge gives half of it per phase. *)
Definition gain (k : con_kind) : R := match k with KC6 => 2 | _ => 1 end.
(** The range in which the converter follows its action. *)
Definition follows (k : con_kind) (u l : R) : Prop := match k with KC1 | KC2 => 0 <= u <= l | KC4 | KC6 => - l <= u <= l end.
(** The voltage at the motor is the demanded one times supply voltage over (gain times limit), in every history of the
    converter without interlocking time. *)
Theorem applied_voltage :
  forall k tau ops lim u a t i t' us,
  let c0 := con_run (con_new k tau 0) ops in
  length u = con_dim c0 -> length lim = con_dim c0 -> length i = con_dim c0 -> Forall (fun l => 0 < l) lim -> Forall2 (follows k) u lim ->
  (k = KC1 -> forall x, In x i -> 0 <= x) -> cont_call lim u = Ok a ->
  exists v, con_convert (fst (con_set_action c0 a t)) i t' = Ok v /\ scale_voltages v [us] = map2 (fun x l => us / (gain k * l) * x) u lim.
Proof.
  intros k tau ops lim u a t i t' us c0 Lu Ll Li Pl Fo H1 Hc. unfold cont_call in Hc. rewrite np_bin_eq in Hc by congruence. injection Hc as <-.
  assert (La : length (map2 Rdiv u lim) = con_dim c0) by (rewrite map2_len by congruence; exact Lu).
  pose proof (continuous_output_is_clipped_action k tau ops (map2 Rdiv u lim) t i t' La Li H1) as E. fold c0 in E. cbv zeta in E. rewrite E. eexists. split; [reflexivity|].
  assert (Efm : forall l : list R, scale_voltages l [us] = map (fun z => z * us) l) by (intros l; unfold scale_voltages; induction l as [|z l IHl]; [reflexivity|cbn in *; now rewrite IHl]). rewrite Efm.
  assert (Hdiv : forall x l, 0 < l -> 0 <= x <= l -> Conv_Spec.clipped (x / l) 0 1 = x / l).
  { intros x l P [A B]. assert (0 <= x / l) by (apply Rmult_le_pos; [exact A|left; apply Rinv_0_lt_compat; exact P]). assert (x / l <= 1) by (apply (Rmult_le_reg_r l); [exact P|]; unfold Rdiv; rewrite Rmult_assoc, Rinv_l by lra; lra).
    unfold Conv_Spec.clipped. destruct (rltP (x / l) 0), (rltP 1 (x / l)); lra. }
  assert (Hdiv2 : forall x l, 0 < l -> - l <= x <= l -> Conv_Spec.clipped (x / l) (-1) 1 = x / l).
  { intros x l P [A B]. assert (-1 <= x / l) by (apply (Rmult_le_reg_r l); [exact P|]; unfold Rdiv; rewrite Rmult_assoc, Rinv_l by lra; lra). assert (x / l <= 1) by (apply (Rmult_le_reg_r l); [exact P|]; unfold Rdiv; rewrite Rmult_assoc, Rinv_l by lra; lra).
    unfold Conv_Spec.clipped. destruct (rltP (x / l) (-1)), (rltP 1 (x / l)); lra. }
  clear -Pl Fo Hdiv Hdiv2. destruct k; cbn [gain follows] in *; rewrite map_map; induction Fo as [|x l u' lim' F Fo IH]; try reflexivity; inversion Pl as [|? ? P1 P2]; subst; cbn [map2 map]; f_equal; try (apply IH; exact P2).
  - rewrite Hdiv by assumption. field. lra.
  - rewrite Hdiv by assumption. field. lra.
  - rewrite Hdiv2 by assumption. field. lra.
  - rewrite Hdiv2 by assumption. field. lra.
Qed.
Print Assumptions applied_voltage.
Example applied_voltage_example : let c0 := con_run (con_new KC6 (1 / 10000) 0) [] in length [30; -15; -15] = con_dim c0 /\ Forall2 (follows KC6) [30; -15; -15] [60; 60; 60] /\ exists a, cont_call [60; 60; 60] [30; -15; -15] = Ok a.
Proof. cbv zeta. split; [reflexivity|]. split; [repeat constructor; cbn; lra|]. eexists. reflexivity. Qed.

(** ** Three phase voltages *)
(** [turn d u] rotates a vector by the angle [d]. *)
Definition turn (d : R) (u : list R) : list R := [cos d * comp 0 u - sin d * comp 1 u; sin d * comp 0 u + cos d * comp 1 u].
Definition scale (c : R) (u : list R) : list R := map (fun x => c * x) u.
(** At the angle [th] the phase voltages are the demanded vector turned by the difference of the angles; the angle used is
    advanced by half a period of 1e-4 s (one and a half with dead time) times the mechanical speed. *)
(** At the angle [th] the phase voltages are the demanded vector turned by the difference of the angles; the angle used is
    advanced by half a period of 1e-4 s (one and a half with dead time) times the mechanical speed. *)
Theorem abc_voltage_angle :
  forall e id m t s eps w ud uq rest u th, abc_tune abc_new e id = Ok t -> motor_type id = Ok m -> str_in m ac_motors = true ->
  length rest = (if String.eqb m "EESM" then 1 else 0)%nat ->
  state_is e s (if str_in m induction_motors then "psi_angle" else "epsilon") eps -> state_is e s "omega" w ->
  abc_call t s (ud :: uq :: rest) = Ok u ->
  skipn 3 u = rest /\
  abc_to_dq (firstn 3 u) th false = Ok (turn (eps + (if match ce_dead e with Some d => d | None => false end then 3 / 2 else 1 / 2) * w / 10000 - th) [ud; uq]).
Proof.
  intros e id m t s eps w ud uq rest u th Ht Hm Hac Lr (i & Ei & He) (j & Ej & Hw) Hu. unfold abc_tune in Ht. rewrite Hm in Ht. cbn [bind] in Ht. rewrite Ei in Ht. cbn [bind] in Ht. rewrite Ej in Ht. cbn [bind] in Ht. rewrite (id_parts _ _ Hm) in Ht. cbn [bind] in Ht.
  assert (Eo : exists us, get_output_voltages m = Ok us /\ length us = (3 + length rest)%nat).
  { rewrite Lr. unfold str_in, ac_motors, induction_motors in Hac. cbn [existsb app] in Hac. rewrite !Bool.orb_true_iff in Hac. destruct Hac as [H|[H|[H|[H|[H|H]]]]]; try discriminate; apply String.eqb_eq in H; subst m; eexists; split; reflexivity. }
  destruct Eo as (us & Eus & Lus). rewrite Eus in Ht. cbn [bind] in Ht. injection Ht as <-. unfold abc_call in Hu. cbn [ab_angle ab_om ab_adv ab_tau ab_len abc_new] in Hu. rewrite He in Hu. cbn [bind] in Hu. rewrite Hw in Hu. cbn [bind firstn skipn] in Hu. rewrite q_val in Hu. cbn [bind] in Hu. rewrite t_32_val in Hu. cbn [bind] in Hu. rewrite Lus in Hu.
  set (adv := match ce_dead e with Some true => 3 / 2 | _ => 1 / 2 end) in Hu. set (f := eps + adv * (1 / 10000) * w) in Hu.
  replace (eps + _ * w / 10000 - th) with (f - th) by (unfold f, adv; destruct (ce_dead e) as [[|]|]; field). set (x := cos f * ud - sin f * uq) in *. set (y := sin f * ud + cos f * uq) in *.
  assert (Eu : u = [x; - x / 2 + sqrt 3 / 2 * y; - x / 2 - sqrt 3 / 2 * y] ++ rest).
  { destruct rest as [|z [|]]; [| |cbn in Lr; destruct (String.eqb m "EESM"); discriminate]; cbn in Hu; injection Hu as <-; reflexivity. }
  rewrite Eu. cbn [app firstn skipn]. split; [reflexivity|]. unfold abc_to_dq. rewrite t_23_val. cbn [bind el_angle]. rewrite q_inv_val. unfold turn, comp. cbn [nth]. unfold el_angle.
  replace (2 / 3 * (x - (- x / 2 + sqrt 3 / 2 * y) / 2 - (- x / 2 - sqrt 3 / 2 * y) / 2)) with x by field. replace (sqrt 3 / 3 * (- x / 2 + sqrt 3 / 2 * y - (- x / 2 - sqrt 3 / 2 * y))) with ((sqrt 3 * sqrt 3) / 3 * y) by field. rewrite sqrt3. replace (3 / 3 * y) with y by field.
  rewrite cos_minus, sin_minus. unfold x, y. do 2 f_equal; [ring|]. f_equal. ring.
Qed.
Print Assumptions abc_voltage_angle.
Example abc_voltage_example : exists t u, abc_tune abc_new pmsm_env "Cont-CC-PMSM-v0" = Ok t /\ abc_call t [100; 0; 0; 0; 0; 0; 0; 0; 0; 1; 60] [10; 20] = Ok u /\ state_is pmsm_env [100; 0; 0; 0; 0; 0; 0; 0; 0; 1; 60] "epsilon" 1 /\ state_is pmsm_env [100; 0; 0; 0; 0; 0; 0; 0; 0; 1; 60] "omega" 100.
Proof. do 2 eexists. split; [reflexivity|]. split; [reflexivity|]. split; eexists; split; reflexivity. Qed.

Lemma turn_same d : (forall ud uq, turn d [ud; uq] = [ud; uq]) <-> cos d = 1.
Proof. split; [intros H; specialize (H 1 0); unfold turn, comp in H; cbn in H; injection H as H _; lra|]. intros H ud uq. pose proof (sincos d) as Q. rewrite H in Q. assert (Z : sin d = 0) by nra. unfold turn, comp. cbn. rewrite H, Z. f_equal; [ring|f_equal; ring]. Qed.
(** The rotor turns by [p * w * tau] electrically in one period, so without dead time the voltage should be right in the
    middle of the period, at [eps + p * w * tau / 2].  It is so for all demands exactly if the cosine below is one; the
    pole pairs and the sampling time of the environment are not used by the code. *)
Theorem abc_advance_exact_iff :
  forall e id m t s eps w p, abc_tune abc_new e id = Ok t -> motor_type id = Ok m -> In m ["PMSM"; "SynRM"] -> ce_dead e <> Some true ->
  state_is e s "epsilon" eps -> state_is e s "omega" w ->
  (forall ud uq, exists u, abc_call t s [ud; uq] = Ok u /\ abc_to_dq u (eps + p * w * ce_tau e / 2) false = Ok [ud; uq]) <->
  cos (w / 2 * (1 / 10000 - p * ce_tau e)) = 1.
Proof.
  intros e id m t s eps w p Ht Hm Hin Hd He Hw. assert (Hd' : (match ce_dead e with Some d => d | None => false end) = false) by (destruct (ce_dead e) as [[|]|]; congruence).
  assert (Hac : str_in m ac_motors = true /\ str_in m induction_motors = false /\ String.eqb m "EESM" = false) by (cbn in Hin; destruct Hin as [<-|[<-|[]]]; repeat split; reflexivity). destruct Hac as (A1 & A2 & A3).
  assert (K : forall ud uq u, abc_call t s [ud; uq] = Ok u -> length u = 3%nat /\ abc_to_dq u (eps + p * w * ce_tau e / 2) false = Ok (turn (w / 2 * (1 / 10000 - p * ce_tau e)) [ud; uq])).
  { intros ud uq u Hu. destruct (abc_voltage_angle e id m t s eps w ud uq [] u (eps + p * w * ce_tau e / 2) Ht Hm A1) as [B1 B2]; try assumption; [rewrite A3; reflexivity|rewrite A2; exact He|]. rewrite Hd' in B2.
    assert (L : (length u <= 3)%nat) by (destruct u as [|? [|? [|? [|]]]]; cbn in *; try lia; discriminate). rewrite firstn_all2 in B2 by exact L. replace (eps + 1 / 2 * w / 10000 - (eps + p * w * ce_tau e / 2)) with (w / 2 * (1 / 10000 - p * ce_tau e)) in B2 by field. split; [|exact B2].
    unfold abc_to_dq, t_23, matvec in B2. destruct u as [|? [|? [|? [|]]]]; cbn in B2; try discriminate; try reflexivity; cbn in L; lia. }
  assert (Ex : forall ud uq, exists u, abc_call t s [ud; uq] = Ok u).
  { intros ud uq. unfold abc_tune in Ht. rewrite Hm in Ht. cbn [bind] in Ht. rewrite A2 in Ht. destruct He as (i & Ei & Hi), Hw as (j & Ej & Hj). rewrite Ei in Ht. cbn [bind] in Ht. rewrite Ej in Ht. cbn [bind] in Ht. rewrite (id_parts _ _ Hm) in Ht. cbn [bind] in Ht.
    assert (Eus : get_output_voltages m = Ok ["u_a"; "u_b"; "u_c"]) by (cbn in Hin; destruct Hin as [<-|[<-|[]]]; reflexivity). rewrite Eus in Ht. cbn [bind] in Ht. injection Ht as <-. unfold abc_call. cbn [ab_angle ab_om ab_adv ab_tau ab_len abc_new]. rewrite Hi. cbn [bind]. rewrite Hj. cbn [bind firstn]. rewrite q_val. cbn [bind]. rewrite t_32_val. cbn [bind length Nat.ltb Nat.leb]. eauto. }
  rewrite <- (turn_same). split.
  - intros H ud uq. destruct (H ud uq) as (u & E1 & E2). destruct (K ud uq u E1) as [_ E3]. congruence.
  - intros H ud uq. destruct (Ex ud uq) as (u & E). exists u. split; [exact E|]. destruct (K ud uq u E) as [_ E3]. rewrite E3, H. reflexivity.
Qed.
Print Assumptions abc_advance_exact_iff.
(** For the default three pole pairs and the default period of 1e-4 s the voltage is never right at a speed between
    standstill and 10000 rad/s. *)
Theorem abc_advance_refuted :
  forall e id t s eps w, abc_tune abc_new e id = Ok t -> motor_type id = Ok "PMSM" -> ce_dead e <> Some true ->
  state_is e s "epsilon" eps -> state_is e s "omega" w -> ce_tau e = 1 / 10000 -> 0 < Rabs w < 10000 ->
  ~ forall ud uq, exists u, abc_call t s [ud; uq] = Ok u /\ abc_to_dq u (eps + 3 * w * ce_tau e / 2) false = Ok [ud; uq].
Proof.
  intros e id t s eps w Ht Hm Hd He Hw Et Hb H. apply (abc_advance_exact_iff e id "PMSM" t s eps w 3 Ht Hm) in H; try assumption; [|cbn; tauto]. rewrite Et in H. replace (w / 2 * (1 / 10000 - 3 * (1 / 10000))) with (- (w / 10000)) in H by field. rewrite cos_neg in H.
  assert (Q : forall x, 0 < x < 1 -> cos x < 1). { intros x Hx. rewrite <- cos_0. pose proof PI_RGT_0 as P0. pose proof PI2_3_2 as P1. apply cos_decreasing_1; lra. }
  unfold Rabs in Hb. destruct (Rcase_abs w) as [N|N].
  - pose proof (Q (- (w / 10000)) ltac:(lra)) as Z. rewrite cos_neg in Z. lra.
  - pose proof (Q (w / 10000) ltac:(lra)) as Z. lra.
Qed.
Print Assumptions abc_advance_refuted.

(** ** End to end *)
Definition sync_kind (m : tp_kind) : Prop := match m with PMSM _ | SYNRM _ => True | _ => False end.
Definition kind_name (m : tp_kind) : string := match m with PMSM _ => "PMSM" | SYNRM _ => "SynRM" | EESM _ => "EESM" | SCIM _ => "SCIM" | DFIM _ => "DFIM" end.
(** The environment belongs to the motor [m] with completed limits [res] and a supply of [un] volts. *)
Definition motor_env (e : cenv) (res : tp_limits) (load : dict R) (un : R) : Prop :=
  NoDup (ce_names e) /\ set_limits (ce_names e) (tp_lim res) load un = Ok (map Fin (ce_limits e)) /\
  forall k, In k ["u_a"; "u_b"; "u_c"] -> dict_get k load = None.
(** A demanded dq voltage arrives at the motor turned by the angle of [abc_voltage_angle] and multiplied with the supply
    voltage over the voltage limit of the motor. *)
Theorem sync_motor_voltage :
  forall m ul un res Il Inn Ul Unm e load us id t lim s eps w ud uq u a tau ops tt i t' th,
  sync_kind m -> NoDup (dict_keys ul) -> NoDup (dict_keys un) -> is_set (lim_in m ul "i") Il -> is_set (nom_in m un "i") Inn ->
  is_set (lim_in m ul "u") Ul -> is_set (nom_in m un "u") Unm -> (forall k v, In k ["u_a"; "u_b"; "u_c"] -> ~ is_set (lim_in m ul k) v) -> 0 < Ul ->
  tp_new m ul un = Ok res -> motor_env e res load us -> ce_dead e <> Some true -> motor_type id = Ok (kind_name m) ->
  abc_tune abc_new e id = Ok t -> cont_tune e id = Ok lim ->
  state_is e s "epsilon" eps -> state_is e s "omega" w -> abc_call t s [ud; uq] = Ok u -> Forall (fun x => Rabs x <= Ul / 2) u -> cont_call lim u = Ok a -> length i = 3%nat ->
  exists v, con_convert (fst (con_set_action (con_run (con_new KC6 tau 0) ops) a tt)) i t' = Ok v /\
    abc_to_dq (scale_voltages v [us]) th false = Ok (scale (us / Ul) (turn (eps + w / 20000 - th) [ud; uq])).
Proof.
  intros m ul un res Il Inn Ul Unm e load us id t lim s eps w ud uq u a tau ops tt i t' th Hk Hul Hun H1 H2 H3 H4 Hnone Pu En (Nd & Hl & Hld) Hd Hm Ht Hc He Hw Hu Fu Ha Li.
  assert (Hd' : (match ce_dead e with Some d => d | None => false end) = false) by (destruct (ce_dead e) as [[|]|]; congruence).
  assert (HM : str_in (kind_name m) ac_motors = true /\ str_in (kind_name m) induction_motors = false /\ String.eqb (kind_name m) "EESM" = false /\ In (kind_name m, ["u_a"; "u_b"; "u_c"]) converter_voltages) by (destruct m; try contradiction; repeat split; cbn; tauto). destruct HM as (A1 & A2 & A3 & A4).
  destruct (abc_voltage_angle e id _ t s eps w ud uq [] u th Ht Hm A1) as [B1 B2]; try assumption; [rewrite A3; reflexivity|rewrite A2; exact He|]. rewrite Hd' in B2.
  assert (L : (length u <= 3)%nat) by (destruct u as [|? [|? [|? [|]]]]; cbn in *; try lia; discriminate). rewrite firstn_all2 in B2 by exact L.
  assert (Lu : length u = 3%nat). { unfold abc_to_dq, t_23, matvec in B2. destruct u as [|? [|? [|? [|]]]]; cbn in B2; try discriminate; try reflexivity; cbn in L; lia. }
  destruct (three_phase_limits_completed m ul un res Il Inn Ul Unm Hul Hun H1 H2 H3 H4 En) as (_ & _ & C3 & _).
  assert (Lm : forall k, In k ["u_a"; "u_b"; "u_c"] -> dict_get k (tp_lim res) = Some (Ul / 2)).
  { intros k Kk. assert (Z : exists i, In (k, i) (tp_names m)) by (destruct m; try contradiction; cbn in Kk |- *; repeat (destruct Kk as [<-|Kk]; [eexists; tauto|]); destruct Kk). destruct Z as (ik & Z). apply (proj1 (C3 k ik Z)). intros v. apply Hnone. exact Kk. }
  destruct (system_limits_spec _ _ _ _ _ Hl) as (_ & _ & S3).
  assert (Le : forall k j, In k ["u_a"; "u_b"; "u_c"] -> nth_error (ce_names e) j = Some k -> comp j (ce_limits e) = Ul / 2).
  { intros k j Kk Ej. assert (k <> "u_sup") by (cbn in Kk; repeat (destruct Kk as [<-|Kk]; [discriminate|]); destruct Kk). destruct (S3 j k Nd Ej H) as (_ & S4).
    assert (Q : nth_error (map Fin (ce_limits e)) j = Some (Fin (Ul / 2))). { apply S4. rewrite (Lm k Kk), (Hld k Kk). split; [left; reflexivity|]. intros v [V|V]; [injection V as <-; lra|discriminate]. }
    rewrite nth_error_map in Q. destruct (nth_error (ce_limits e) j) as [x|] eqn:Ex; [|discriminate]. cbn in Q. injection Q as Q. unfold comp. rewrite (nth_error_nth _ _ _ Ex). exact Q. }
  assert (El : lim = [Ul / 2; Ul / 2; Ul / 2]).
  { unfold cont_tune in Hc. rewrite (id_parts _ _ Hm) in Hc. cbn [bind] in Hc. assert (Eg : get_output_voltages (kind_name m) = Ok ["u_a"; "u_b"; "u_c"]) by (destruct m; try contradiction; reflexivity). rewrite Eg in Hc. cbn [bind] in Hc.
    apply bind_ok in Hc. destruct Hc as (ui & Ei & Hc). cbn [indices] in Ei. repeat (apply bind_ok in Ei; let j := fresh "j" in let Ej := fresh "Ej" in destruct Ei as (j & Ej & Ei); [idtac]).
    repeat match goal with E : bind _ _ = Ok _ |- _ => apply bind_ok in E; let x := fresh "x" in let Ex := fresh "Ex" in destruct E as (x & Ex & E) end.
    repeat match goal with E : Ok _ = Ok _ |- _ => injection E as <- end.
    repeat match goal with E : str_index _ _ = Ok _ |- _ => apply str_index_ok in E end.
    pose proof (select_length _ _ _ Hc) as Ls. destruct lim as [|l0 [|l1 [|l2 [|]]]]; try discriminate Ls.
    pose proof (select_comp _ _ _ 0 Hc ltac:(cbn; lia)) as Q0. pose proof (select_comp _ _ _ 1 Hc ltac:(cbn; lia)) as Q1. pose proof (select_comp _ _ _ 2 Hc ltac:(cbn; lia)) as Q2. cbn [nth] in Q0, Q1, Q2. unfold comp in Q0, Q1, Q2 at 1. cbn [nth] in Q0, Q1, Q2.
    repeat match goal with E : nth_error (ce_names e) ?j = Some ?k |- _ => pose proof (Le k j ltac:(cbn; tauto) E); revert E end. intros. unfold comp in *. congruence. }
  subst lim. destruct (applied_voltage KC6 tau ops [Ul / 2; Ul / 2; Ul / 2] u a tt i t' us) as (v & V1 & V2).
  - pose proof (con_run_kind ops (con_new KC6 tau 0)) as Kd. destruct (con_run (con_new KC6 tau 0) ops); cbn in Kd; try contradiction; try discriminate. exact Lu.
  - pose proof (con_run_kind ops (con_new KC6 tau 0)) as Kd. destruct (con_run (con_new KC6 tau 0) ops); cbn in Kd; try contradiction; try discriminate. reflexivity.
  - pose proof (con_run_kind ops (con_new KC6 tau 0)) as Kd. destruct (con_run (con_new KC6 tau 0) ops); cbn in Kd; try contradiction; try discriminate. exact Li.
  - repeat constructor; lra.
  - destruct u as [|x [|y [|z [|]]]]; try discriminate. inversion Fu as [|? ? F1 F1']; subst. inversion F1' as [|? ? F2 F2']; subst. inversion F2' as [|? ? F3 F3']; subst.
    assert (Q : forall r, Rabs r <= Ul / 2 -> - (Ul / 2) <= r <= Ul / 2) by (intros r Hr; unfold Rabs in Hr; destruct (Rcase_abs r); lra). do 3 (apply Forall2_cons; [apply Q; assumption|]). apply Forall2_nil.
  - discriminate.
  - exact Ha.
  - exists v. split; [exact V1|]. rewrite V2. destruct u as [|x [|y [|z [|]]]]; try discriminate. cbn [map2 gain]. unfold abc_to_dq in *. rewrite t_23_val in B2. rewrite t_23_val. cbn [bind] in *. rewrite q_inv_val in B2. rewrite q_inv_val. cbn [el_angle] in *. unfold el_angle in *.
    replace (eps + w / 20000 - th) with (eps + 1 / 2 * w / 10000 - th) by field. set (T := turn _ _) in *. pose proof (f_equal (fun r => match r with Ok l => l | Err _ => [] end) B2) as Z. cbv beta iota in Z. rewrite <- Z. unfold scale. cbn [map]. do 2 f_equal; [field; lra|]. f_equal. field. lra.
Qed.
Print Assumptions sync_motor_voltage.
(** An environment of the default motor: all states of a synchronous machine, every limit known. *)
Definition sync_names : list string := ["omega"; "torque"; "i_a"; "i_b"; "i_c"; "i_sd"; "i_sq"; "u_a"; "u_b"; "u_c"; "u_sd"; "u_sq"; "epsilon"; "u_sup"].
Definition sync_env (tq us : R) : cenv :=
  {| ce_names := sync_names; ce_limits := [4000 * PI / 30; tq; 400; 400; 400; 400; 400; 150; 150; 150; 150; 150; PI; us]; ce_low := repeat (-1) 13 ++ [0]; ce_high := repeat 1 14; ce_refs := ["i_sd"; "i_sq"];
     ce_tau := 1 / 10000; ce_par := [("p", 3); ("l_d", 37 / 100000); ("l_q", 12 / 10000); ("r_s", 18 / 1000); ("psi_p", 66 / 1000)]; ce_j := 1 / 1000; ce_act := SBox 3; ce_b6 := false; ce_dead := None |}.
Lemma sync_env_ok us : exists res, tp_new (PMSM pmsm_default) [("torque", 50)] [] = Ok res /\ motor_env (sync_env 50 us) res [] us.
Proof.
  set (ul := [("torque", 50)]). assert (N1 : NoDup (dict_keys ul)) by (apply nodup_strings; reflexivity). assert (N2 : NoDup (dict_keys (@nil (string * R)))) by constructor.
  assert (A1 : is_set (lim_in (PMSM pmsm_default) ul "i") 400) by (split; [reflexivity|lra]). assert (A2 : is_set (nom_in (PMSM pmsm_default) [] "i") 240) by (split; [reflexivity|lra]).
  assert (A3 : is_set (lim_in (PMSM pmsm_default) ul "u") 300) by (split; [reflexivity|lra]). assert (A4 : is_set (nom_in (PMSM pmsm_default) [] "u") 300) by (split; [reflexivity|lra]).
  destruct (three_phase_constructor_total (PMSM pmsm_default) ul [] 400 240 N1 N2) as [res E]; auto; [intros k [<-|[]]; right; now left|intros k []|].
  exists res. split; [exact E|]. destruct (three_phase_limits_completed (PMSM pmsm_default) ul [] res 400 240 300 300 N1 N2 A1 A2 A3 A4 E) as (B0 & _ & B & _). pose proof PI_RGT_0 as P0.
  split; [apply nodup_strings; reflexivity|]. split; [|intros k _; reflexivity].
  assert (G : forall k v, In (k, v) [("omega", 4000 * PI / 30); ("torque", 50); ("epsilon", PI)] -> dict_get k (tp_lim res) = Some v).
  { intros k v Hk. apply B0. cbn in Hk. repeat (destruct Hk as [Hk|Hk]; [injection Hk as <- <-; split; [reflexivity|lra]|]). destruct Hk. }
  assert (Gu : forall k, In k ["u_a"; "u_b"; "u_c"; "u_sd"; "u_sq"] -> dict_get k (tp_lim res) = Some 150).
  { intros k Hk. replace 150 with (300 / 2) by field. cbn in Hk. destruct Hk as [<-|[<-|[<-|[<-|[<-|[]]]]]]; [apply (B "u_a" "i_a")|apply (B "u_b" "i_b")|apply (B "u_c" "i_c")|apply (B "u_sd" "i_sd")|apply (B "u_sq" "i_sq")]; try (cbn; tauto); intros v [K _]; discriminate K. }
  assert (Gi : forall k, In k ["i_a"; "i_b"; "i_c"; "i_sd"; "i_sq"] -> dict_get k (tp_lim res) = Some 400).
  { intros k Hk. cbn in Hk. destruct Hk as [<-|[<-|[<-|[<-|[<-|[]]]]]]; [apply (B "u_a" "i_a")|apply (B "u_b" "i_b")|apply (B "u_c" "i_c")|apply (B "u_sd" "i_sd")|apply (B "u_sq" "i_sq")]; try (cbn; tauto); intros v [K _]; discriminate K. }
  unfold set_limits, get_lim. cbn [ce_names sync_env sync_names str_index map]. 
  rewrite (G "omega" _ ltac:(cbn; tauto)), (G "torque" _ ltac:(cbn; tauto)), (G "epsilon" _ ltac:(cbn; tauto)), !Gi, !Gu by (cbn; tauto). reflexivity.
Qed.
(** The default motor (limit 300 V) at the default supply of the speed and torque control environments (420 V): the motor
    gets 7/5 of the demanded voltage. *)
Theorem demanded_voltage_applied_refuted :
  exists res, tp_new (PMSM pmsm_default) [("torque", 50)] [] = Ok res /\ motor_env (sync_env 50 420) res [] 420 /\
  forall t lim s eps w ud uq u a tau ops tt i t', abc_tune abc_new (sync_env 50 420) "Cont-SC-PMSM-v0" = Ok t -> cont_tune (sync_env 50 420) "Cont-SC-PMSM-v0" = Ok lim ->
  state_is (sync_env 50 420) s "epsilon" eps -> state_is (sync_env 50 420) s "omega" w -> abc_call t s [ud; uq] = Ok u -> Forall (fun x => Rabs x <= 150) u -> cont_call lim u = Ok a -> length i = 3%nat ->
  exists v, con_convert (fst (con_set_action (con_run (con_new KC6 tau 0) ops) a tt)) i t' = Ok v /\
    abc_to_dq (scale_voltages v [420]) (eps + w / 20000) false = Ok [7 / 5 * ud; 7 / 5 * uq].
Proof.
  destruct (sync_env_ok 420) as (res & E & Me). exists res. split; [exact E|]. split; [exact Me|]. intros t lim s eps w ud uq u a tau ops tt i t' Ht Hc He Hw Hu Fu Ha Li.
  destruct (sync_motor_voltage (PMSM pmsm_default) [("torque", 50)] [] res 400 240 300 300 (sync_env 50 420) [] 420 "Cont-SC-PMSM-v0" t lim s eps w ud uq u a tau ops tt i t' (eps + w / 20000)) as (v & V1 & V2); try assumption; try reflexivity.
  - apply nodup_strings. reflexivity.
  - constructor.
  - split; [reflexivity|lra].
  - split; [reflexivity|lra].
  - split; [reflexivity|lra].
  - split; [reflexivity|lra].
  - intros k x Kk [K _]. cbn in Kk. repeat (destruct Kk as [<-|Kk]; [discriminate K|]). destruct Kk.
  - lra.
  - discriminate.
  - replace (300 / 2) with 150 by field. exact Fu.
  - exists v. split; [exact V1|]. rewrite V2. unfold scale, turn, comp. cbn [nth map]. replace (eps + w / 20000 - (eps + w / 20000)) with 0 by ring. rewrite cos_0, sin_0. do 2 f_equal; [field|f_equal; field].
Qed.
Print Assumptions demanded_voltage_applied_refuted.
Example demanded_voltage_case : exists t lim u a, abc_tune abc_new (sync_env 50 420) "Cont-SC-PMSM-v0" = Ok t /\ cont_tune (sync_env 50 420) "Cont-SC-PMSM-v0" = Ok lim /\
  abc_call t [0; 0; 0; 0; 0; 0; 0; 0; 0; 0; 0; 0; 0; 420] [60; 0] = Ok u /\ Forall (fun x => Rabs x <= 150) u /\ cont_call lim u = Ok a.
Proof.
  assert (Eu : forall t, abc_tune abc_new (sync_env 50 420) "Cont-SC-PMSM-v0" = Ok t -> abc_call t [0; 0; 0; 0; 0; 0; 0; 0; 0; 0; 0; 0; 0; 420] [60; 0] = Ok [60; -30; -30]).
  { intros t Ht. injection Ht as <-. unfold abc_call. cbn [item nth_error ab_angle ab_om ab_adv ab_tau ab_len bind firstn]. rewrite q_val. cbn [bind]. rewrite t_32_val. cbn [bind Nat.ltb Nat.leb]. replace (0 + 1 / 2 * (1 / 10000) * 0) with 0 by field. rewrite cos_0, sin_0. do 2 f_equal; [ring|]. f_equal; [field|]. f_equal. field. }
  eexists. eexists. exists [60; -30; -30]. eexists. split; [reflexivity|]. split; [reflexivity|]. split; [apply Eu; reflexivity|]. split; [|reflexivity].
  repeat apply Forall_cons; [..|apply Forall_nil]; apply Rabs_le; lra.
Qed.
