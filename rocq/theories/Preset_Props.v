(** Properties of the shipped environments: every registered id builds the modules its name
    announces, and which supplies exceed the voltage limit of their motor. *)
From Verif Require Import PyBase PyDict Preset_Model.
Local Open Scope string_scope. Local Open Scope list_scope. Local Open Scope R_scope.

(** ** What an id announces *)
Inductive task := SpeedControl | TorqueControl | CurrentControl.
Definition act_word (finite : bool) : string := if finite then "Finite" else "Cont".
Definition task_word (t : task) : string := match t with SpeedControl => "SC" | TorqueControl => "TC" | CurrentControl => "CC" end.
Definition motor_word (m : motor_class) : string :=
  match m with PermExDc => "PermExDc" | ExtExDc => "ExtExDc" | SeriesDc => "SeriesDc" | ShuntDc => "ShuntDc"
  | Pmsm => "PMSM" | Synrm => "SynRM" | Eesm => "EESM" | Scim => "SCIM" | Dfim => "DFIM" end.
Definition env_id (finite : bool) (t : task) (m : motor_class) : string :=
  String.append (act_word finite) (String.append "-" (String.append (task_word t) (String.append "-" (String.append (motor_word m) "-v0")))).

(** The controlled currents of a motor: the armature current of the shunt motor, the currents
    in rotor coordinates of three phase motors, and the excitation currents that can be
    driven separately. *)
Definition controlled_currents (m : motor_class) : list string :=
  match m with
  | PermExDc | SeriesDc => ["i"] | ShuntDc => ["i_a"] | ExtExDc => ["i_a"; "i_e"]
  | Pmsm | Synrm | Scim | Dfim => ["i_sd"; "i_sq"] | Eesm => ["i_sd"; "i_sq"; "i_e"] end.
Definition controlled (t : task) (m : motor_class) : list string :=
  match t with SpeedControl => ["omega"] | TorqueControl => ["torque"] | CurrentControl => controlled_currents m end.
(** One bridge per winding: four quadrants for a DC winding, three phases for a stator or a
    wound rotor. *)
Definition bridges (finite : bool) (m : motor_class) : list elementary :=
  let dc := if finite then Fin4 else Cont4 in let ac := if finite then FinB6 else ContB6 in
  match m with
  | PermExDc | SeriesDc | ShuntDc => [dc] | ExtExDc => [dc; dc] | Pmsm | Synrm | Scim => [ac] | Eesm => [ac; dc] | Dfim => [ac; ac] end.
Definition converter_for (finite : bool) (m : motor_class) : conv_class :=
  match bridges finite m with [b] => Single b | l => Multi finite l end.
Definition system_for (m : motor_class) : sys_class :=
  match m with PermExDc | ExtExDc | SeriesDc | ShuntDc => DcSys | Pmsm | Synrm => SyncSys | Eesm => EesmSys | Scim => ScimSys | Dfim => DfimSys end.

Definition ref_list (p : preset) : list wiener_ref := match pr_refs p with One r => [r] | Several l => l end.
Definition ref_names (p : preset) : list string := map rf_state (ref_list p).
Definition constraint_names (c : dconstraint) : list string := match c with DName s => [s] | DSquared l | DLimit l => l end.
Definition sum_names (p : preset) : list string := match pr_wrappers p with [] => [] | _ => ["i_sum"] end.

(** The modules fit the id. *)
Record fits_id (finite : bool) (t : task) (m : motor_class) (p : preset) : Prop := {
  fit_motor : pr_motor p = m;
  fit_sys : pr_sys p = system_for m;
  fit_conv : pr_conv p = converter_for finite m;
  fit_tau : pr_tau p = if finite then 1 / 100000 else 1 / 10000;
  fit_load : match t with SpeedControl => pr_load p = LPoly | _ => exists w, pr_load p = LConst w /\ 0 < w end;
  fit_refs : ref_names p = controlled t m;
  fit_keys : dict_keys (pr_weights p) = controlled t m;
  fit_weights : rsum (map snd (pr_weights p)) = 1 /\ Forall (fun w => 0 < w) (map snd (pr_weights p)) /\
    (forall v w, In v (map snd (pr_weights p)) -> In w (map snd (pr_weights p)) -> v = w);
  fit_states : incl (controlled t m ++ flat_map constraint_names (pr_constraints p) ++ concat (pr_wrappers p)) (motor_states m);
  fit_plots : incl (controlled t m) (pr_plots p) /\ incl (pr_plots p) (motor_states m);
  fit_guarded : incl (if match t with CurrentControl => true | _ => false end then controlled_currents m else []) (flat_map constraint_names (pr_constraints p)) }.

Ltac incl_dec := intros x Hx; cbn in Hx; repeat (destruct Hx as [<-|Hx]; [cbn; tauto|]); try contradiction.
Ltac fits := constructor; cbn;
  [reflexivity|reflexivity|reflexivity|reflexivity
  |first [reflexivity|eexists; split; [reflexivity|lra]]
  |reflexivity|reflexivity
  |split; [lra|split; [repeat (constructor; [lra|]); constructor|intros v w Hv Hw; cbn in Hv, Hw; intuition (subst; lra)]]
  |incl_dec|split; incl_dec|incl_dec].
Definition combos : list (bool * task * motor_class) :=
  list_prod (list_prod [true; false] [SpeedControl; TorqueControl; CurrentControl])
    [PermExDc; ExtExDc; SeriesDc; ShuntDc; Pmsm; Synrm; Eesm; Scim; Dfim].
Definition parse (s : string) : option (bool * task * motor_class) :=
  find (fun c => String.eqb s (env_id (fst (fst c)) (snd (fst c)) (snd c))) combos.
Lemma parse_env_id finite t m : parse (env_id finite t m) = Some (finite, t, m).
Proof. destruct finite, t, m; vm_compute; reflexivity. Qed.
Ltac by_id :=
  match goal with |- exists finite t m, pr_id ?p = _ /\ _ =>
    let r := eval vm_compute in (parse (pr_id p)) in
    match r with Some (?f, ?t, ?m) => exists f, t, m; split; [reflexivity|fits] end end.

Fixpoint distinctb (l : list string) : bool :=
  match l with [] => true | x :: l' => negb (existsb (String.eqb x) l') && distinctb l' end.
Lemma nodup_dec : forall l, distinctb l = true -> NoDup l.
Proof.
  induction l as [|x l IH]; intros H; [constructor|]. cbn in H.
  apply andb_prop in H as [H1 H2]. constructor; [|apply IH, H2].
  intros Hx. apply negb_true_iff in H1. assert (E : existsb (String.eqb x) l = true).
  { apply existsb_exists. exists x. split; [exact Hx|apply String.eqb_refl]. }
  congruence.
Qed.

(** ** C124 The registered ids are exactly the combinations of action type, task and motor,
    and each environment consists of the modules its id announces. *)
Theorem presets_fit_their_ids :
  (forall p, In p presets -> exists finite t m, pr_id p = env_id finite t m /\ fits_id finite t m p) /\
  (forall finite t m, exists p, In p presets /\ pr_id p = env_id finite t m) /\
  NoDup (map pr_id presets) /\ NoDup (map pr_class presets).
Proof.
  split; [|split; [|split]].
  - intros p Hp. unfold presets in Hp.
    repeat (destruct Hp as [<-|Hp]; [by_id|]). destruct Hp.
  - intros finite t m.
    assert (E : existsb (String.eqb (env_id finite t m)) (map pr_id presets) = true) by (destruct finite, t, m; vm_compute; reflexivity).
    apply existsb_exists in E as (s & H & E). apply String.eqb_eq in E. subst s.
    apply in_map_iff in H as (p & Hid & Hp). exists p. split; [exact Hp|exact Hid].
  - apply nodup_dec. vm_compute. reflexivity.
  - apply nodup_dec. vm_compute. reflexivity.
Qed.
Print Assumptions presets_fit_their_ids.

(** Non-vacuity, and a counter-check: an environment of another motor does not fit the id. *)
Example presets_fit_example :
  In pr_Cont_TC_EESM_v0 presets /\ fits_id false TorqueControl Eesm pr_Cont_TC_EESM_v0 /\
  ~ fits_id false TorqueControl Pmsm pr_Cont_TC_EESM_v0 /\ length presets = 54%nat.
Proof.
  split; [unfold presets; cbn; tauto|split; [fits|split; [|reflexivity]]].
  intros H. pose proof (fit_motor _ _ _ _ H) as Hm. discriminate Hm.
Qed.

(** ** C125 The supply voltage against the voltage limit of the motor.  [SCMLSystem] divides
    the voltages by the motor's limit, so the announced state space holds for the voltages
    only if the supply stays within that limit.  Eighteen environments violate this. *)
Definition above_limit (m : motor_class) (t : task) (finite : bool) : bool :=
  match m, t, finite with
  | Pmsm, CurrentControl, false | Eesm, CurrentControl, false => false
  | Pmsm, _, _ | Eesm, _, _ | Synrm, _, _ => true
  | SeriesDc, CurrentControl, true | SeriesDc, TorqueControl, true => true
  | _, _, _ => false end.
Ltac by_id2 :=
  match goal with |- exists finite t m, pr_id ?p = _ /\ _ =>
    let r := eval vm_compute in (parse (pr_id p)) in
    match r with Some (?f, ?t, ?m) => exists f, t, m; split; [reflexivity|cbn; split; intros; try discriminate; try reflexivity; try lra] end end.
Theorem supply_above_motor_limit_iff :
  forall p, In p presets -> exists finite t m, pr_id p = env_id finite t m /\
    (default_u_limit (pr_motor p) < pr_supply p <-> above_limit m t finite = true).
Proof.
  intros p Hp. unfold presets in Hp.
  repeat (destruct Hp as [<-|Hp]; [by_id2|]). destruct Hp.
Qed.
Print Assumptions supply_above_motor_limit_iff.
Theorem supply_within_motor_limit_refuted :
  ~ (forall p, In p presets -> pr_supply p <= default_u_limit (pr_motor p)) /\
  pr_supply pr_Finite_CC_SeriesDc_v0 = 7 * default_u_limit SeriesDc /\
  pr_supply pr_Cont_CC_SeriesDc_v0 = default_u_limit SeriesDc.
Proof.
  split; [|cbn; split; lra].
  intros H. assert (Hp : In pr_Finite_CC_SeriesDc_v0 presets) by (unfold presets; cbn; tauto).
  specialize (H _ Hp). cbn in H. lra.
Qed.
Print Assumptions supply_within_motor_limit_refuted.

(** ** C126 Both variants of a task use the same references (refuted): the discrete and the
    continuous environment of the same task and motor differ in the range of the reference
    of the excitation current and of the torque of the shunt motor. *)
Definition margins (p : preset) : list (string * option (R * R)) := map (fun r => (rf_state r, rf_margin r)) (ref_list p).
Theorem variants_share_references_refuted :
  ~ (forall p q t m, In p presets -> In q presets -> pr_id p = env_id true t m -> pr_id q = env_id false t m -> margins p = margins q) /\
  (forall p q t m, In p presets -> In q presets -> pr_id p = env_id true t m -> pr_id q = env_id false t m ->
     ref_names p = ref_names q /\ dict_keys (pr_weights p) = dict_keys (pr_weights q)).
Proof.
  split.
  - intros H. specialize (H pr_Finite_CC_EESM_v0 pr_Cont_CC_EESM_v0 CurrentControl Eesm).
    assert (E : margins pr_Finite_CC_EESM_v0 = margins pr_Cont_CC_EESM_v0) by (apply H; try reflexivity; unfold presets; cbn; tauto).
    cbn in E. injection E. intros E1. discriminate.
  - intros p q t m Hp Hq Ip Iq. destruct presets_fit_their_ids as (H & _).
    assert (Hinj : forall f1 t1 m1 f2 t2 m2, env_id f1 t1 m1 = env_id f2 t2 m2 -> t1 = t2 /\ m1 = m2).
    { intros f1 t1 m1 f2 t2 m2 E. pose proof (parse_env_id f1 t1 m1) as P1. rewrite E, parse_env_id in P1. injection P1 as _ <- <-. auto. }
    destruct (H p Hp) as (f1 & t1 & m1 & I1 & F1), (H q Hq) as (f2 & t2 & m2 & I2 & F2).
    rewrite Ip in I1. rewrite Iq in I2. apply Hinj in I1 as [<- <-]. apply Hinj in I2 as [<- <-].
    rewrite (fit_refs _ _ _ _ F1), (fit_refs _ _ _ _ F2), (fit_keys _ _ _ _ F1), (fit_keys _ _ _ _ F2). auto.
Qed.
Print Assumptions variants_share_references_refuted.
(** Exactly two environments restrict a reference, so exactly two pairs of variants differ. *)
Definition restricted (id s : string) : option (R * R) :=
  if (String.eqb id "Cont-TC-ShuntDc-v0" && String.eqb s "torque")%bool then Some (0, 4 / 5)
  else if (String.eqb id "Cont-CC-EESM-v0" && String.eqb s "i_e")%bool then Some (0, 1) else None.
Theorem reference_margins_exact : forall p, In p presets -> margins p = map (fun s => (s, restricted (pr_id p) s)) (ref_names p).
Proof. intros p Hp. unfold presets in Hp. cbn [In] in Hp. repeat (destruct Hp as [<-|Hp]; [reflexivity|]). contradiction. Qed.
Print Assumptions reference_margins_exact.
Example restricted_example : In pr_Cont_CC_EESM_v0 presets /\ restricted "Cont-CC-EESM-v0" "i_e" = Some (0, 1) /\ restricted "Finite-CC-EESM-v0" "i_e" = None.
Proof. split; [unfold presets; cbn; tauto|]. split; reflexivity. Qed.
