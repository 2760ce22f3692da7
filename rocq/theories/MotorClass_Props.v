(** C64: constructing doubly fed motors and the name lists of the induction motors. *)
From Verif Require Import PyBase PyBaseFacts PyDict PyDictFacts Utils_Model Utils_Proofs Transform_Model Motor_Model
  MotorLimit_Model MotorLimit_Spec MotorLimit_Proofs MotorLimit_Props MotorClass_Model MotorClass_Spec MotorClass_Proofs.
Local Open Scope string_scope.
Local Open Scope list_scope.
Local Open Scope R_scope.

(** The name lists after every history of constructor calls, successful or not: the class
    lists of all induction motors grow by the five rotor names per doubly fed motor, and
    every motor that exists sees the grown lists. *)
Theorem dfim_grows_shared_lists :
  forall l, let w := w_run w_init l in
  deref w (w_cls_u w) = scim_io_voltages ++ times (dfims l) io_rotor_voltages /\
  deref w (w_cls_i w) = scim_io_currents ++ times (dfims l) io_rotor_currents /\
  forall o, In o (w_objs w) ->
    obj_voltages w o = scim_io_voltages ++ times (dfims l) io_rotor_voltages /\
    obj_currents w o = scim_io_currents ++ times (dfims l) io_rotor_currents.
Proof.
  intros l w. pose proof (w_run_ok l 0 w_init w_init_ok) as H. fold w in H. cbn [Nat.add] in H.
  destruct (w_ok_lists _ _ H) as [H1 H2]. split; [exact H1|]. split; [exact H2|].
  intros o Ho. destruct H as (C1 & C2 & _ & C4). specialize (C4 o Ho). unfold obj_voltages, obj_currents, attr.
  rewrite C1 in H1. rewrite C2 in H2.
  destruct (mo_kind o); destruct C4 as [-> ->]; rewrite ?C1, ?C2; split; assumption.
Qed.
Print Assumptions dfim_grows_shared_lists.

(** The expectation "constructing motors never changes the lists of the class and of the
    other motors" fails after every history that contains a doubly fed motor: the lists then
    have 7 + 5 n entries. *)
Theorem io_lists_unchanged_refuted :
  forall l, (0 < dfims l)%nat -> let w := w_run w_init l in
  length (deref w (w_cls_u w)) = (7 + 5 * dfims l)%nat /\ length (deref w (w_cls_i w)) = (7 + 5 * dfims l)%nat /\
  deref w (w_cls_u w) <> deref w_init (w_cls_u w_init) /\ deref w (w_cls_i w) <> deref w_init (w_cls_i w_init).
Proof.
  intros l Hl w. destruct (dfim_grows_shared_lists l) as (H1 & H2 & _). fold w in H1, H2.
  assert (T : forall n (a : list string), length (times n a) = (n * length a)%nat).
  { intros n a. induction n as [|n IH]; [reflexivity|]. cbn [times]. rewrite app_length, IH. reflexivity. }
  assert (L1 : length (deref w (w_cls_u w)) = (7 + 5 * dfims l)%nat) by (rewrite H1, app_length, T; cbn [length scim_io_voltages io_rotor_voltages]; lia).
  assert (L2 : length (deref w (w_cls_i w)) = (7 + 5 * dfims l)%nat) by (rewrite H2, app_length, T; cbn [length scim_io_currents io_rotor_currents]; lia).
  split; [exact L1|]. split; [exact L2|].
  split; intros E; apply (f_equal (@length string)) in E; rewrite ?L1, ?L2 in E; cbn [w_init deref w_heap w_cls_u w_cls_i nth length scim_io_voltages scim_io_currents] in E; lia.
Qed.
Print Assumptions io_lists_unchanged_refuted.

(** Nevertheless the limits of a doubly fed motor are the same after every history. *)
Theorem dfim_limits_history_independent :
  forall l m ul un, NoDup (dict_keys ul) -> NoDup (dict_keys un) ->
  snd (w_step (w_run w_init l) (NewDfim m ul un)) = dfim_new m ul un.
Proof.
  intros l m ul un Hul Hun. pose proof (w_run_ok l 0 w_init w_init_ok) as H. cbn [Nat.add] in H.
  set (w := w_run w_init l) in *. pose proof (dfim_world _ _ H) as K. destruct (w_ok_lists _ _ K) as [K1 K2].
  cbn [w_step]. unfold new_dfim. cbv zeta.
  change (w_cls_i (extend_list (w_cls_u w) io_rotor_voltages w)) with (w_cls_i w).
  change (w_cls_u (extend_list (w_cls_i w) io_rotor_currents (extend_list (w_cls_u w) io_rotor_voltages w))) with (w_cls_u w) in K1.
  change (w_cls_i (extend_list (w_cls_i w) io_rotor_currents (extend_list (w_cls_u w) io_rotor_voltages w))) with (w_cls_i w) in K2.
  rewrite K1, K2, (dfim_with_times m ul un (dfims l) Hul Hun). destruct (dfim_new m ul un); reflexivity.
Qed.
Print Assumptions dfim_limits_history_independent.

(** The limits of a squirrel cage motor after every history: the same exception, or the same
    values as for the first motor of the program for all names but the rotor names. *)
Theorem scim_limits_besides_rotor_names :
  forall l m ul un, NoDup (dict_keys ul) -> NoDup (dict_keys un) ->
  match snd (w_step (w_run w_init l) (NewScim m ul un)), scim_new m ul un with
  | Ok a, Ok b => (forall k, ~ rotor_name k -> dict_get k (tp_lim a) = dict_get k (tp_lim b) /\ dict_get k (tp_nom a) = dict_get k (tp_nom b)) /\
                  tp_nan a = tp_nan b
  | Err e, Err e' => e = e'
  | _, _ => False
  end.
Proof.
  intros l m ul un Hul Hun. pose proof (w_run_ok l 0 w_init w_init_ok) as H. cbn [Nat.add] in H.
  destruct (w_ok_lists _ _ H) as [H1 H2]. cbn [w_step]. unfold new_scim. cbv zeta. rewrite H1, H2.
  pose proof (scim_with_times m ul un (dfims l) Hul Hun) as K.
  destruct (scim_with _ _ m ul un) as [a|e], (scim_new m ul un) as [b|e']; cbn [snd same_res] in *; try assumption.
  destruct K as (A1 & A2 & A3). split; [|exact A3]. intros k Hk. split; auto.
Qed.
Print Assumptions scim_limits_besides_rotor_names.

(** The rotor names appear in the limits of a squirrel cage motor exactly if a doubly fed
    motor was constructed before: the limits depend on the history. *)
Theorem scim_limits_history_independent_refuted :
  forall l m ul un a, NoDup (dict_keys ul) -> NoDup (dict_keys un) ->
  snd (w_step (w_run w_init l) (NewScim m ul un)) = Ok a ->
  (dfims l = O -> forall k, rotor_name k -> dict_get k (tp_lim a) = None) /\
  ((0 < dfims l)%nat -> forall k, rotor_name k -> exists v, dict_get k (tp_lim a) = Some v).
Proof.
  intros l m ul un a Hul Hun. pose proof (w_run_ok l 0 w_init w_init_ok) as H. cbn [Nat.add] in H.
  destruct (w_ok_lists _ _ H) as [H1 H2]. cbn [w_step]. unfold new_scim. cbv zeta. rewrite H1, H2. intros E.
  set (n := dfims l) in *. clearbody n. clear H H1 H2.
  assert (E' : scim_with (scim_io_voltages ++ times n io_rotor_voltages) (scim_io_currents ++ times n io_rotor_currents) m ul un = Ok a)
    by (destruct (scim_with _ _ m ul un); exact E). clear E. rename E' into E.
  unfold scim_with, construct in E. rewrite scim_pairs in E.
  destruct (merged scim_default_limits ul) as [lim|e] eqn:E1; [|discriminate]. cbn [bind] in E.
  destruct (merged scim_default_nominal un) as [nom|e] eqn:E2; [|discriminate]. cbn [bind] in E.
  assert (KN : forall k, ~ In k (dict_keys scim_default_limits) -> dict_get k lim = None).
  { intros k Hk. exact (merged_no_key _ _ _ _ Hul (def_lim_nodup (SCIM m)) E1 Hk). }
  unfold tp_update in E. destruct (dict_item "u" lim) as [u1|]; [|discriminate]. cbn [bind] in E. destruct (dict_item "u" nom) as [u2|]; [|discriminate]. cbn [bind] in E.
  assert (Ku : dict_get "u_sa" lim = None) by (apply KN, str_in_false; reflexivity).
  destruct (given_or_missing lim "i") as [[I HI]|Hm].
  2:{ unfold agenda_names, stator_pairs in E. cbn [scim_io_voltages scim_io_currents combine app] in E. rewrite agenda_cons_err in E by assumption. discriminate. }
  rewrite (agenda_given lim _ (im_rs m) I _ HI) in E. cbn [bind] in E.
  fold (agenda_dict (1 / 2 * u1) I (agenda_names n)) in E. fold (scim_agenda (1 / 2 * u1) I n) in E.
  destruct (agenda nom (1 / 2 * u2) (im_rs m) (agenda_names n) []) as [na|e]; [|discriminate]. cbn [bind] in E.
  pose proof (base_update_limits (4000 * PI / 30) lim nom _ na (scim_agenda_nodup (1 / 2 * u1) I n)) as BL.
  destruct (base_update (4000 * PI / 30) lim nom (scim_agenda (1 / 2 * u1) I n) na) as [a1 b1]. cbn [fst] in BL.
  assert (RK : forall k, rotor_name k -> dict_get k lim = None /\ "omega" <> k /\ "torque" <> k /\ dict_get k (scim_agenda (1 / 2 * u1) I 0) = None /\
                 dict_get k (scim_agenda (1 / 2 * u1) I 1) <> None).
  { assert (D : forallb (fun k => negb (str_in k (dict_keys scim_default_limits))) ["u_ra"; "u_rb"; "u_rc"; "u_rd"; "u_rq"; "i_ra"; "i_rb"; "i_rc"; "i_rd"; "i_rq"] = true) by reflexivity.
    intros k Hk. split; [apply KN; exact (disjoint_strings _ _ D k Hk)|].
    split; [intros <-; revert Hk; apply str_in_false; reflexivity|]. split; [intros <-; revert Hk; apply str_in_false; reflexivity|].
    unfold rotor_name in Hk. cbn [In] in Hk. split; [|rewrite scim_agenda_get];
    repeat (destruct Hk as [<-|Hk]; [cbn; try reflexivity; discriminate|]); contradiction Hk. }
  assert (G1 : forall k, rotor_name k -> dict_get k a1 = dict_get k (scim_agenda (1 / 2 * u1) I n)).
  { intros k Hk. destruct (RK k Hk) as (R1 & R2 & _). rewrite BL, R1. apply dict_get_set_other. congruence. }
  assert (G2 : forall k, rotor_name k -> (dict_get k a1 = None -> dict_get k (tp_lim a) = None) /\ (dict_get k a1 <> None -> dict_get k (tp_lim a) <> None)).
  { intros k Hk. destruct (RK k Hk) as (_ & R2 & R3 & _).
    destruct (im_torque_limit m a1 b1) as [[tq|]|e]; cbn [bind] in E; [| |discriminate].
    - assert (T : NoDup (dict_keys [("torque", tq)])) by (constructor; [intros []|constructor]).
      pose proof (base_update_limits (4000 * PI / 30) a1 b1 _ [] T) as CL.
      destruct (base_update (4000 * PI / 30) a1 b1 [("torque", tq)] []) as [a2 b2]. cbn [fst] in CL.
      injection E. intros <-. cbn [tp_lim]. rewrite CL. rewrite dict_get_set_other by congruence. cbn [dict_get].
      destruct (String.eqb_spec "torque" k); [contradiction|]. split; [intros ->; reflexivity|].
      destruct (dict_get k a1) as [v|]; [|congruence]. intros _. destruct (req v 0); discriminate.
    - injection E. intros <-. cbn [tp_lim]. tauto. }
  split.
  - intros -> k Hk. apply (G2 k Hk). rewrite (G1 k Hk). now apply RK.
  - intros Hn k Hk. destruct n as [|n]; [lia|]. destruct (dict_get k (tp_lim a)) as [v|] eqn:Ev; [eauto|]. exfalso.
    revert Ev. apply (G2 k Hk). rewrite (G1 k Hk), scim_agenda_get, <- (scim_agenda_get _ _ 0). now apply RK.
Qed.
Print Assumptions scim_limits_history_independent_refuted.

(** Non-vacuity: default motors can be constructed after one doubly fed motor. *)
Example motor_class_case : let m := {| im_p := 2; im_lm := 1; im_lsigs := 1; im_lsigr := 1; im_rs := 1; im_rr := 1 |} in
  let l := [NewScim m [] []; NewDfim m [] []; NewScim m [] []] in
  dfims l = 1%nat /\ (exists a, scim_new m [] [] = Ok a) /\ (exists a, dfim_new m [] [] = Ok a) /\
  deref (w_run w_init l) (w_cls_u (w_run w_init l)) = scim_io_voltages ++ io_rotor_voltages.
Proof.
  intros m l. split; [reflexivity|].
  assert (S : exists a, scim_new m [] [] = Ok a).
  { apply (three_phase_constructor_total (SCIM m) [] [] (55 / 10) (39 / 10)); try apply NoDup_nil; try (intros k []); (split; [reflexivity|lra]). }
  assert (D : exists a, dfim_new m [] [] = Ok a).
  { apply (three_phase_constructor_total (DFIM m) [] [] 9 (75 / 10)); try apply NoDup_nil; try (intros k []); (split; [reflexivity|lra]). }
  split; [exact S|]. split; [exact D|]. rewrite (proj1 (dfim_grows_shared_lists l)). reflexivity.
Qed.
