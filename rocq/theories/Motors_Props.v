(** Properties of the environment descriptions of envs/motors.py. *)
From Verif Require Import PyBase PyDict Preset_Model Preset_Props Full_Spec Motors_Model.
Local Open Scope string_scope. Local Open Scope list_scope.

(** The machine, task and action type that a description stands for. *)
Definition machine_of (m : mtype) : motor_class :=
  match m with MPermEx => PermExDc | MExtEx => ExtExDc | MSeries => SeriesDc | MShunt => ShuntDc | MEesm => Eesm
  | MDfim => Dfim | MScim => Scim | MPmsm => Pmsm | MSynrm => Synrm end.
Definition task_of (c : ctype) : task := match c with CSpeed => SpeedControl | CTorque => TorqueControl | CCurrent => CurrentControl end.
Definition is_finite (a : atype) : bool := match a with AFinite => true | AContinuous => false end.

Lemma desc_env_id_words d : desc_env_id d = env_id (is_finite (d_action d)) (task_of (d_control d)) (machine_of (d_motor d)).
Proof. destruct d as [m c a]; destruct m, c, a; vm_compute; reflexivity. Qed.
Lemma desc_of_words f t m : exists d, is_finite (d_action d) = f /\ task_of (d_control d) = t /\ machine_of (d_motor d) = m.
Proof.
  exists {| d_motor := match m with PermExDc => MPermEx | ExtExDc => MExtEx | SeriesDc => MSeries | ShuntDc => MShunt | Pmsm => MPmsm
                       | Synrm => MSynrm | Eesm => MEesm | Scim => MScim | Dfim => MDfim end;
            d_control := match t with SpeedControl => CSpeed | TorqueControl => CTorque | CurrentControl => CCurrent end;
            d_action := if f then AFinite else AContinuous |}.
  destruct f, t, m; repeat split.
Qed.
Lemma desc_env_id_inj d e : desc_env_id d = desc_env_id e -> d = e.
Proof.
  rewrite !desc_env_id_words. intros H. apply (f_equal parse) in H. rewrite !parse_env_id in H.
  destruct d as [m c a], e as [m' c' a']. cbn in H.
  destruct a, a'; try discriminate H; destruct c, c'; try discriminate H; destruct m, m'; (discriminate H || reflexivity).
Qed.
Lemma registered_spec id p : registered id = Some p -> In p presets /\ pr_id p = id.
Proof. unfold registered. intros H. apply find_some in H as [H1 H2]. split; [exact H1|]. symmetry. apply String.eqb_eq, H2. Qed.

(** ** C156 Descriptions and environments correspond one to one: [Motor(m, c, a).env_id()] is
    always a registered id, the environment made from it has that machine, task and action
    type, different descriptions make different environments and every registered environment
    has a description. *)
Theorem descriptions_name_their_environments :
  (forall d, exists p, registered (desc_env_id d) = Some p /\
     fits_id (is_finite (d_action d)) (task_of (d_control d)) (machine_of (d_motor d)) p) /\
  (forall d e, desc_env_id d = desc_env_id e -> d = e) /\
  (forall p, In p presets -> exists d, desc_env_id d = pr_id p /\ registered (desc_env_id d) = Some p).
Proof.
  destruct presets_fit_their_ids as (Hfit & Hall & Hid & _).
  assert (Hreg : forall p, In p presets -> registered (pr_id p) = Some p).
  { intros p Hp. unfold registered. clear Hfit Hall. revert Hid Hp. generalize presets as l. induction l as [|x l IH]; intros Hnd Hin; [destruct Hin|].
    cbn [find]. cbn [map] in Hnd. inversion Hnd as [|y l0 Hx Hl]; subst. destruct Hin as [->|Hin]; [rewrite String.eqb_refl; reflexivity|].
    destruct (String.eqb (pr_id p) (pr_id x)) eqn:G; [|apply IH; assumption].
    exfalso. apply Hx. apply String.eqb_eq in G. rewrite <- G. apply in_map. exact Hin. }
  split; [|split].
  - intros d. destruct (Hall (is_finite (d_action d)) (task_of (d_control d)) (machine_of (d_motor d))) as (p & Hp & Hi).
    exists p. rewrite desc_env_id_words, <- Hi. split; [apply Hreg, Hp|].
    destruct (Hfit p Hp) as (f & t & m & Hi2 & Hf). rewrite Hi in Hi2. apply (f_equal parse) in Hi2. rewrite !parse_env_id in Hi2.
    injection Hi2 as <- <- <-. exact Hf.
  - exact desc_env_id_inj.
  - intros p Hp. destruct (Hfit p Hp) as (f & t & m & Hi & _). destruct (desc_of_words f t m) as (d & <- & <- & <-).
    exists d. rewrite desc_env_id_words, <- Hi. split; [reflexivity|apply Hreg, Hp].
Qed.
Print Assumptions descriptions_name_their_environments.

Example description_example :
  desc_env_id {| d_motor := MSeries; d_control := CCurrent; d_action := AContinuous |} = "Cont-CC-SeriesDc-v0" /\
  registered "Cont-CC-SeriesDc-v0" = Some pr_Cont_CC_SeriesDc_v0 /\ registered "Cont-CC-DcSeries-v0" = None.
Proof. vm_compute. repeat split. Qed.

(** ** C157 [Motor.states()] against the states of the environment ([all_names]: the states of
    the physical system followed by those that default wrappers add).  Every listed name is a
    state of the environment and none is listed twice, so plots can be made from the list; the
    names left out are exactly the supply voltage, the rotor angle of the synchronous machines
    and the current sum of the shunt machine. *)
Definition left_out (m : motor_class) : list string :=
  match m with Pmsm | Synrm | Eesm => ["epsilon"; "u_sup"] | ShuntDc => ["u_sup"; "i_sum"] | _ => ["u_sup"] end.
Definition in_list (x : string) (l : list string) : bool := existsb (String.eqb x) l.
Lemma listed_states_dec d :
  match registered (desc_env_id d) with
  | Some p =>
    forallb (fun x => in_list x (all_names p) && negb (in_list x (left_out (pr_motor p)))) (init_states (d_motor d)) &&
    forallb (fun x => in_list x (init_states (d_motor d)) || in_list x (left_out (pr_motor p))) (all_names p) &&
    forallb (fun x => in_list x (all_names p)) (left_out (pr_motor p)) &&
    distinctb (init_states (d_motor d))
  | None => false end = true.
Proof. destruct d as [m c a]; destruct m, c, a; vm_compute; reflexivity. Qed.
Lemma in_list_in x l : in_list x l = true <-> In x l.
Proof.
  unfold in_list. rewrite existsb_exists. split; [intros (y & Hy & E); apply String.eqb_eq in E; subst; exact Hy|].
  intros H. exists x. split; [exact H|apply String.eqb_refl].
Qed.
Theorem listed_states_are_states :
  forall d p, registered (desc_env_id d) = Some p ->
    NoDup (desc_states init_states d) /\
    (forall x, In x (desc_states init_states d) <-> In x (all_names p) /\ ~ In x (left_out (pr_motor p))) /\
    (forall x, In x (left_out (pr_motor p)) -> In x (all_names p)).
Proof.
  intros d p Hp. unfold desc_states.
  pose proof (listed_states_dec d) as H. rewrite Hp in H.
  apply andb_prop in H as [H H4]. apply andb_prop in H as [H H3]. apply andb_prop in H as [H1 H2].
  rewrite forallb_forall in H1, H2, H3. split; [apply nodup_dec, H4|]. split.
  - intros x. split.
    + intros Hx. specialize (H1 x Hx). apply andb_prop in H1 as [Ha Hb]. split; [apply in_list_in, Ha|].
      intros Hc. apply in_list_in in Hc. rewrite Hc in Hb. discriminate Hb.
    + intros [Ha Hb]. specialize (H2 x Ha). apply orb_prop in H2 as [H|H]; apply in_list_in in H; tauto.
  - intros x Hx. apply in_list_in, H3, Hx.
Qed.
Print Assumptions listed_states_are_states.

(** The list cannot be used to read an observation: only the four DC machines and the squirrel
    cage machine list the states at the positions they have in the state vector.  For every
    other machine some name stands at the position of another state (examples/observers/state_observer_example.py 72
    prints the list as the state names). *)
Fixpoint prefixb (l m : list string) : bool :=
  match l, m with [], _ => true | x :: l, y :: m => String.eqb x y && prefixb l m | _, [] => false end.
Lemma prefixb_spec l m : prefixb l m = true <-> (forall k x, nth_error l k = Some x -> nth_error m k = Some x).
Proof.
  revert m. induction l as [|y l IH]; intros m; cbn [prefixb].
  - split; [intros _ [|k] x H; discriminate H|reflexivity].
  - destruct m as [|z m]; [split; [discriminate|intros H; specialize (H 0%nat y eq_refl); discriminate H]|].
    rewrite andb_true_iff, IH, String.eqb_eq. split.
    + intros [-> H] [|k] x Hk; [exact Hk|exact (H k x Hk)].
    + intros H. split; [specialize (H 0%nat y eq_refl); injection H as ->; reflexivity|intros k x Hk; exact (H (S k) x Hk)].
Qed.
Lemma positions_dec d :
  match registered (desc_env_id d) with
  | Some p => prefixb (init_states (d_motor d)) (all_names p) = match d_motor d with MPermEx | MExtEx | MSeries | MShunt | MScim => true | _ => false end
  | None => False end.
Proof. destruct d as [m c a]; destruct m, c, a; vm_compute; reflexivity. Qed.
Theorem listed_states_are_positions_refuted :
  forall d p, registered (desc_env_id d) = Some p ->
    ((forall k x, nth_error (desc_states init_states d) k = Some x -> nth_error (all_names p) k = Some x) <->
     match d_motor d with MPermEx | MExtEx | MSeries | MShunt | MScim => True | _ => False end).
Proof.
  intros d p Hp. pose proof (positions_dec d) as H0. rewrite Hp in H0. unfold desc_states.
  rewrite <- prefixb_spec, H0. destruct (d_motor d); split; auto; discriminate.
Qed.
Print Assumptions listed_states_are_positions_refuted.

Example positions_example :
  registered (desc_env_id {| d_motor := MPmsm; d_control := CTorque; d_action := AFinite |}) = Some pr_Finite_TC_PMSM_v0 /\
  nth_error (init_states MPmsm) 2 = Some "i_sd" /\ nth_error (motor_states Pmsm) 2 = Some "i_a".
Proof. vm_compute. repeat split. Qed.

(** ** C158 Descriptions do not own their list of states: a caller that appends to or removes
    from the list it got changes what every description of the same motor type returns, and
    nothing else. *)
Theorem state_lists_are_private_refuted :
  forall s d o s', mutate_states s d o = Ok s' ->
    (forall e, d_motor e = d_motor d -> list_do o (desc_states s e) = Ok (desc_states s' e)) /\
    (forall e, d_motor e <> d_motor d -> desc_states s' e = desc_states s e).
Proof.
  intros s d o s' H. unfold mutate_states, desc_states in *.
  destruct (list_do o (s (d_motor d))) as [l|x] eqn:G; cbn in H; [|discriminate H]. injection H as <-. split.
  - intros e ->. rewrite G. destruct (d_motor d); reflexivity.
  - intros e Hne. destruct (d_motor e), (d_motor d); cbn; try reflexivity; exfalso; apply Hne; reflexivity.
Qed.
Print Assumptions state_lists_are_private_refuted.

(** Appending the supply voltage for one permanently excited motor lists it for all tasks. *)
Example private_example :
  exists s', mutate_states init_states {| d_motor := MPermEx; d_control := CSpeed; d_action := AContinuous |} (LAppend "u_sup") = Ok s' /\
    desc_states s' {| d_motor := MPermEx; d_control := CTorque; d_action := AFinite |} = ["omega"; "torque"; "i"; "u"; "u_sup"] /\
    desc_states s' {| d_motor := MSeries; d_control := CTorque; d_action := AFinite |} = ["omega"; "torque"; "i"; "u"].
Proof. eexists. split; [reflexivity|]. split; reflexivity. Qed.
