(** C36, C37, C84, C85: limits and nominal values of the motors. *)
From Verif Require Import PyBase PyBaseFacts PyDict PyDictFacts Utils_Model Utils_Proofs Transform_Model Motor_Model MotorLimit_Model MotorLimit_Spec MotorLimit_Proofs.

(** ** C37: completion *)
(** Whatever limits are passed in, an entry given with a non-zero value is kept, a
    missing one takes the value of the agenda (speed: the class default), a missing
    nominal value takes the nominal agenda or else the limit. *)
Theorem limits_completed :
  forall omega lim nom ld nd, NoDup (dict_keys lim) -> NoDup (dict_keys ld) ->
  let r := base_update omega lim nom ld nd in
  (forall k v, given lim k v -> dict_get k (fst r) = Some v) /\
  (forall k v, given nom k v -> dict_get k (snd r) = Some v) /\
  (missing lim "omega"%string -> dict_get "omega"%string (fst r) = Some omega) /\
  (forall k v, k <> "omega"%string -> missing lim k -> dict_get k ld = Some v -> dict_get k (fst r) = Some v) /\
  (forall k l, dict_get k (fst r) = Some l -> missing nom k ->
     dict_get k (snd r) = Some (match dict_get k nd with Some v => v | None => l end)) /\
  (forall k, In k (dict_keys (fst r)) -> In k (dict_keys (snd r))).
Proof.
  intros omega lim nom ld nd Hl Hld r.
  pose proof (base_update_limits omega lim nom ld nd Hld) as BL.
  pose proof (base_update_nominal omega lim nom ld nd Hl) as BN. cbv zeta in BN. fold r in BL, BN.
  assert (Hmiss : forall d k v, missing d k -> dict_get k d = Some v -> v = 0).
  { intros d k v Hm Hv. destruct (Req_dec v 0) as [Z|Z]; [exact Z|]. exfalso. apply (Hm v). split; assumption. }
  assert (R0 : req 0 0 = true) by (destruct (reqP 0 0); congruence).
  split; [|split; [|split; [|split; [|split]]]].
  - intros k v [K1 K2]. rewrite BL, K1. destruct (reqP v 0); congruence.
  - intros k v [K1 K2]. rewrite BN. destruct (dict_get k (fst r)); rewrite K1; [|reflexivity]. destruct (reqP v 0); congruence.
  - intros Hm. rewrite BL, dict_get_set_same. destruct (dict_get "omega"%string lim) as [v|] eqn:Ev; [|reflexivity].
    now rewrite (Hmiss _ _ _ Hm Ev), R0.
  - intros k v Hk Hm Hv. rewrite BL, dict_get_set_other, Hv by exact Hk. destruct (dict_get k lim) as [w|] eqn:Ew; [|reflexivity].
    now rewrite (Hmiss _ _ _ Hm Ew), R0.
  - intros k l Hk Hm. rewrite BN, Hk. destruct (dict_get k nom) as [w|] eqn:Ew; [|reflexivity].
    now rewrite (Hmiss _ _ _ Hm Ew), R0.
  - intros k Hk. apply dict_get_some_iff in Hk. destruct Hk as [l El]. apply dict_get_some_iff. rewrite BN, El.
    destruct (dict_get k nom) as [v|]; [destruct (req v 0)|]; eauto.
Qed.
Print Assumptions limits_completed.

(** The five three phase motors, with their class defaults and names. *)
Inductive tp_kind := PMSM (m : pmsm_par) | SYNRM (m : synrm_par) | EESM (m : eesm_par) | SCIM (m : im_par) | DFIM (m : im_par).
Definition tp_new (k : tp_kind) : dict R -> dict R -> res tp_limits :=
  match k with PMSM m => pmsm_new m | SYNRM m => synrm_new m | EESM m => eesm_new m | SCIM m => scim_new m | DFIM m => dfim_new m end.
Definition tp_def_lim (k : tp_kind) : dict R :=
  match k with PMSM _ => pmsm_default_limits | SYNRM _ => synrm_default_limits | EESM _ => eesm_default_limits | SCIM _ => scim_default_limits | DFIM _ => dfim_default_limits end.
Definition tp_def_nom (k : tp_kind) : dict R :=
  match k with PMSM _ => pmsm_default_nominal | SYNRM _ => synrm_default_nominal | EESM _ => eesm_default_nominal | SCIM _ => scim_default_nominal | DFIM _ => dfim_default_nominal end.
Definition tp_names (k : tp_kind) : list (string * string) :=
  match k with PMSM _ | SYNRM _ => combine sync_io_voltages sync_io_currents | EESM _ => combine eesm_io_voltages eesm_io_currents
  | SCIM _ => combine scim_io_voltages scim_io_currents | DFIM _ => combine dfim_io_voltages dfim_io_currents end.
Definition tp_omega (k : tp_kind) : R :=
  match k with PMSM _ | SCIM _ => 4000 * PI / 30 | SYNRM _ => 4300 * PI / 30 | EESM _ => 12000 * PI / 30 | DFIM _ => 1800 * PI / 30 end.
Definition tp_r (k : tp_kind) : R :=
  match k with PMSM m => pm_rs m | SYNRM m => sr_rs m | EESM m => ee_rs m | SCIM m => im_rs m | DFIM m => im_rr m end.
Definition tp_tlimit (k : tp_kind) : dict R -> dict R -> res (option R) :=
  match k with PMSM m => pmsm_torque_limit m | SYNRM m => synrm_torque_limit m | EESM m => eesm_torque_limit m | SCIM m | DFIM m => im_torque_limit m end.
Lemma tp_new_eq k ul un : tp_new k ul un =
  do lim <- merged (tp_def_lim k) ul; do nom <- merged (tp_def_nom k) un; tp_update (tp_omega k) (tp_r k) (tp_names k) (tp_tlimit k) lim nom.
Proof. destruct k; reflexivity. Qed.

Ltac in_cases H := repeat (destruct H as [H|H]; [try discriminate H; try (injection H; intros; subst)|]); try contradiction H.
Lemma nodup_strings (l : list string) : (forallb (fun s => Nat.eqb (count_occ String.string_dec l s) 1) l) = true -> NoDup l.
Proof.
  intros H. rewrite forallb_forall in H. apply (NoDup_count_occ' String.string_dec). intros x Hx. apply H in Hx. now apply Nat.eqb_eq.
Qed.
Lemma def_lim_nodup k : NoDup (dict_keys (tp_def_lim k)).
Proof. apply nodup_strings. destruct k; reflexivity. Qed.
Lemma def_nom_nodup k : NoDup (dict_keys (tp_def_nom k)).
Proof. apply nodup_strings. destruct k; reflexivity. Qed.
Lemma disjoint_strings (l1 l2 : list string) : forallb (fun s => negb (str_in s l2)) l1 = true -> forall x, In x l1 -> ~ In x l2.
Proof.
  intros H x Hx K. rewrite forallb_forall in H. apply H in Hx. apply str_in_true in K. rewrite K in Hx. discriminate.
Qed.
Lemma tp_names_ok k : names_ok (tp_names k) /\ ~ In "i"%string (map fst (tp_names k) ++ map snd (tp_names k)).
Proof.
  assert (N : forall l s, str_in s l = false -> ~ In s l) by (intros l s; apply str_in_false).
  split; [split; [|split]|]; try (apply disjoint_strings); try apply N; destruct k; reflexivity.
Qed.

(** The value of [k] before completion: the user's or the class default. *)
Definition lim_in (m : tp_kind) (ul : dict R) (k : string) : option R := chosen (tp_def_lim m) ul k.
Definition nom_in (m : tp_kind) (un : dict R) (k : string) : option R := chosen (tp_def_nom m) un k.
Definition is_set (o : option R) (v : R) : Prop := o = Some v /\ v <> 0.

(** Every phase quantity gets the general value (currents) or half of it (voltages)
    unless it was given, for every three phase motor and user dictionaries with a
    non-zero general current and voltage. *)
Theorem three_phase_limits_completed :
  forall m ul un res Il Inn Ul Un, NoDup (dict_keys ul) -> NoDup (dict_keys un) ->
  is_set (lim_in m ul "i"%string) Il -> is_set (nom_in m un "i"%string) Inn ->
  is_set (lim_in m ul "u"%string) Ul -> is_set (nom_in m un "u"%string) Un ->
  tp_new m ul un = Ok res ->
  (forall k v, is_set (lim_in m ul k) v -> dict_get k (tp_lim res) = Some v) /\
  (forall k v, is_set (nom_in m un k) v -> dict_get k (tp_nom res) = Some v) /\
  (forall u i, In (u, i) (tp_names m) ->
     ((forall v, ~ is_set (lim_in m ul u) v) -> dict_get u (tp_lim res) = Some (Ul / 2)) /\
     ((forall v, ~ is_set (lim_in m ul i) v) -> dict_get i (tp_lim res) = Some Il) /\
     ((forall v, ~ is_set (nom_in m un u) v) -> dict_get u (tp_nom res) = Some (Un / 2)) /\
     ((forall v, ~ is_set (nom_in m un i) v) -> dict_get i (tp_nom res) = Some Inn)) /\
  (forall k, In k (dict_keys (tp_lim res)) -> In k (dict_keys (tp_nom res))).
Proof.
  intros m ul un res Il Inn Ul Un Hul Hun H1 H2 H3 H4 E. rewrite tp_new_eq in E.
  destruct (merged (tp_def_lim m) ul) as [lim|e] eqn:E1; [|discriminate]. cbn [bind] in E.
  destruct (merged (tp_def_nom m) un) as [nom|e] eqn:E2; [|discriminate]. cbn [bind] in E.
  destruct (merged_spec _ _ _ Hul (def_lim_nodup m) E1) as (_ & N1 & G1).
  destruct (merged_spec _ _ _ Hun (def_nom_nodup m) E2) as (_ & N2 & G2).
  assert (GL : forall k v, given lim k v <-> is_set (lim_in m ul k) v) by (intros k v; unfold given, is_set, lim_in; now rewrite G1).
  assert (GN : forall k v, given nom k v <-> is_set (nom_in m un k) v) by (intros k v; unfold given, is_set, nom_in; now rewrite G2).
  destruct (tp_update_values _ _ _ _ _ _ Ul Un Il Inn res N1 (proj1 (tp_names_ok m))
              (proj2 (GL _ _) H1) (proj2 (GN _ _) H2) (proj2 (GL _ _) H3) (proj2 (GN _ _) H4) E) as (A1 & A2 & A3 & A4).
  split; [intros k v Hk; apply A1, GL, Hk|]. split; [intros k v Hk; apply A2, GN, Hk|]. split; [|exact A4].
  intros u i Hin. destruct (A3 u i Hin) as (B1 & B2 & B3 & B4).
  repeat split; intros Hm; [apply B1|apply B2|apply B3|apply B4]; intros v Hv; apply (Hm v); (apply GL + apply GN); exact Hv.
Qed.
Print Assumptions three_phase_limits_completed.

(** The constructor accepts every dictionary with known keys and a non-zero general
    current, whatever the motor parameters. *)
Definition needed (m : tp_kind) : list string :=
  match m with PMSM _ => ["i_sq"]%string | EESM _ => ["i_sq"; "i_e"]%string | _ => ["i_sd"; "i_sq"]%string end.
Lemma tlimit_total m lim nom i : (forall k, In k (needed m) -> exists v, dict_get k lim = Some v) -> dict_get "i"%string nom = Some i ->
  exists t, tp_tlimit m lim nom = Ok t.
Proof.
  intros Hc Hi.
  assert (DI : forall k (d : dict R) v, dict_get k d = Some v -> dict_item k d = Ok v) by (intros k d v H; unfold dict_item; now rewrite H).
  destruct m as [m|m|m|m|m]; cbn [tp_tlimit needed] in *.
  - unfold pmsm_torque_limit. destruct (Hc "i_sq"%string (or_introl eq_refl)) as [v Hv]. rewrite (DI _ _ _ Hv), (DI _ _ _ Hi). cbn [bind].
    destruct (req (pm_ld m) (pm_lq m)); [eexists; reflexivity|]. unfold with_nan.
    destruct (np_sqrt _) as [s|]; [|eexists; reflexivity]. destruct (np_sqrt _) as [s'|]; eexists; reflexivity.
  - unfold synrm_torque_limit. destruct (Hc "i_sd"%string (or_introl eq_refl)) as [v Hv].
    destruct (Hc "i_sq"%string (or_intror (or_introl eq_refl))) as [w Hw]. rewrite (DI _ _ _ Hv), (DI _ _ _ Hw). eexists; reflexivity.
  - unfold eesm_torque_limit. destruct (Hc "i_sq"%string (or_introl eq_refl)) as [v Hv].
    destruct (Hc "i_e"%string (or_intror (or_introl eq_refl))) as [w Hw]. rewrite (DI _ _ _ Hv), (DI _ _ _ Hw), (DI _ _ _ Hi). cbn [bind].
    destruct (req (ee_ld m) (ee_lq m)); [eexists; reflexivity|]. unfold with_nan.
    destruct (np_sqrt _) as [s|]; [|eexists; reflexivity]. destruct (np_sqrt _) as [s'|]; eexists; reflexivity.
  - unfold im_torque_limit. destruct (Hc "i_sd"%string (or_introl eq_refl)) as [v Hv].
    destruct (Hc "i_sq"%string (or_intror (or_introl eq_refl))) as [w Hw]. rewrite (DI _ _ _ Hv), (DI _ _ _ Hw). eexists; reflexivity.
  - unfold im_torque_limit. destruct (Hc "i_sd"%string (or_introl eq_refl)) as [v Hv].
    destruct (Hc "i_sq"%string (or_intror (or_introl eq_refl))) as [w Hw]. rewrite (DI _ _ _ Hv), (DI _ _ _ Hw). eexists; reflexivity.
Qed.
Lemma needed_names m k : In k (needed m) -> exists u, In (u, k) (tp_names m).
Proof.
  intros H.
  assert (G : forallb (fun k => str_in k (map snd (tp_names m))) (needed m) = true) by (destruct m; reflexivity).
  rewrite forallb_forall in G. apply G in H. apply str_in_true in H. apply in_map_iff in H. destruct H as [[u i] [<- Hi]]. now exists u.
Qed.
Theorem three_phase_constructor_total :
  forall m ul un Il Inn, NoDup (dict_keys ul) -> NoDup (dict_keys un) ->
  (forall k, In k (dict_keys ul) -> In k (dict_keys (tp_def_lim m))) ->
  (forall k, In k (dict_keys un) -> In k (dict_keys (tp_def_nom m))) ->
  is_set (lim_in m ul "i"%string) Il -> is_set (nom_in m un "i"%string) Inn ->
  exists res, tp_new m ul un = Ok res.
Proof.
  intros m ul un Il Inn Hul Hun Kl Kn H1 H2. rewrite tp_new_eq.
  destruct (merged_ok _ _ Hul Kl) as [lim E1]. destruct (merged_ok _ _ Hun Kn) as [nom E2]. rewrite E1, E2. cbn [bind].
  destruct (merged_spec _ _ _ Hul (def_lim_nodup m) E1) as (_ & N1 & G1).
  destruct (merged_spec _ _ _ Hun (def_nom_nodup m) E2) as (_ & N2 & G2).
  assert (GI : given lim "i"%string Il) by (destruct H1 as [K1 K2]; split; [now rewrite G1|exact K2]).
  assert (GN : given nom "i"%string Inn) by (destruct H2 as [K1 K2]; split; [now rewrite G2|exact K2]).
  assert (D : forall (d u : dict R), In "u"%string (dict_keys d) -> exists v, chosen d u "u"%string = Some v).
  { intros d u K. unfold chosen. destruct (dict_get "u"%string u); [eauto|]. now apply dict_get_some_iff. }
  assert (Du : forall (d : dict R), str_in "u"%string (dict_keys d) = true -> In "u"%string (dict_keys d)) by (intros d; apply str_in_true).
  destruct (D (tp_def_lim m) ul) as [Ul EU]; [apply Du; destruct m; reflexivity|].
  destruct (D (tp_def_nom m) un) as [Un EUn]; [apply Du; destruct m; reflexivity|].
  unfold tp_update, dict_item. rewrite G1, G2, EU, EUn. cbn [bind].
  rewrite (agenda_given lim _ _ Il _ GI), (agenda_given nom _ _ Inn _ GN). cbn [bind].
  destruct (tp_names_ok m) as [NO NI].
  fold (agenda_dict (1 / 2 * Ul) Il (tp_names m)). fold (agenda_dict (1 / 2 * Un) Inn (tp_names m)).
  pose proof (base_update_limits (tp_omega m) lim nom (agenda_dict (1 / 2 * Ul) Il (tp_names m)) (agenda_dict (1 / 2 * Un) Inn (tp_names m)) (agenda_dict_nodup _ _ _)) as BL.
  pose proof (base_update_nominal (tp_omega m) lim nom (agenda_dict (1 / 2 * Ul) Il (tp_names m)) (agenda_dict (1 / 2 * Un) Inn (tp_names m)) N1) as BN. cbv zeta in BN.
  destruct (base_update (tp_omega m) lim nom _ _) as [lim' nom']. cbn [fst snd] in BL, BN.
  destruct (tlimit_total m lim' nom' Inn) as [t Et].
  - intros k Hk. destruct (needed_names m k Hk) as [u Hin]. rewrite BL.
    assert (Mi : In k (map snd (tp_names m))) by (apply in_map_iff; now exists (u, k)).
    rewrite dict_get_set_other by (intros ->; apply (proj2 (proj2 NO)), in_or_app; auto).
    rewrite agenda_dict_get by exact NO. rewrite (proj2 (str_in_true k _) Mi).
    destruct (dict_get k lim) as [v|]; [destruct (req v 0)|]; eauto.
  - rewrite BN. destruct (dict_get "i"%string lim'); destruct GN as [-> GN]; [|reflexivity]. destruct (reqP Inn 0); [contradiction|reflexivity].
  - rewrite Et. cbn [bind]. destruct t as [tq|]; [|eexists; reflexivity].
    destruct (base_update (tp_omega m) lim' nom' [("torque"%string, tq)] []). eexists; reflexivity.
Qed.
Print Assumptions three_phase_constructor_total.

(** A user who only gives the general limit of a PMSM: all hypotheses hold. *)
Definition pmsm_default : pmsm_par := {| pm_p := 3; pm_ld := 37 / 100000; pm_lq := 12 / 10000; pm_rs := 18 / 1000; pm_psi := 66 / 1000 |}.
Example pmsm_completed :
  exists res, tp_new (PMSM pmsm_default) [("i"%string, 500)] [] = Ok res /\
    dict_get "i_sq"%string (tp_lim res) = Some 500 /\ dict_get "u_a"%string (tp_lim res) = Some (300 / 2) /\
    dict_get "i_b"%string (tp_nom res) = Some 240.
Proof.
  assert (A1 : is_set (lim_in (PMSM pmsm_default) [("i"%string, 500)] "i"%string) 500) by (split; [reflexivity|lra]).
  assert (A2 : is_set (nom_in (PMSM pmsm_default) [] "i"%string) 240) by (split; [reflexivity|lra]).
  assert (A3 : is_set (lim_in (PMSM pmsm_default) [("i"%string, 500)] "u"%string) 300) by (split; [reflexivity|lra]).
  assert (A4 : is_set (nom_in (PMSM pmsm_default) [] "u"%string) 300) by (split; [reflexivity|lra]).
  assert (N1 : NoDup (dict_keys [("i"%string, 500)])) by (apply nodup_strings; reflexivity).
  assert (N2 : NoDup (dict_keys (@nil (string * R)))) by (apply nodup_strings; reflexivity).
  destruct (three_phase_constructor_total (PMSM pmsm_default) [("i"%string, 500)] [] 500 240 N1 N2) as [res E]; auto.
  - intros k [<-|[]]. right. right. now left.
  - intros k [].
  - exists res. split; [exact E|].
    destruct (three_phase_limits_completed (PMSM pmsm_default) _ _ res 500 240 300 300 N1 N2 A1 A2 A3 A4 E) as (_ & _ & B & _).
    split; [|split].
    + apply (B "u_sq" "i_sq")%string; [cbn; tauto|]. intros v [K _]. discriminate.
    + apply (B "u_a" "i_a")%string; [cbn; tauto|]. intros v [K _]. discriminate.
    + apply (B "u_b" "i_b")%string; [cbn; tauto|]. intros v [K _]. discriminate.
Qed.

(** ** C36: torque limits *)
Lemma rltF a b : b <= a -> rlt a b = false.
Proof. intros H. destruct (rltP a b); [lra|reflexivity]. Qed.
Lemma reqF a b : a <> b -> req a b = false.
Proof. intros H. destruct (reqP a b); [contradiction|reflexivity]. Qed.

(** With l_d < l_q the torque limit of the PMSM is the largest torque reachable with a
    current vector of at most the nominal current, and it is attained. *)
Theorem pmsm_torque_limit_is_mtpa :
  forall m lim nom i, 0 < pm_p m -> 0 <= pm_psi m -> pm_ld m < pm_lq m -> 0 < i -> dict_get "i"%string nom = Some i ->
  exists t, pmsm_torque_limit m lim nom = Ok (Some t) /\ 0 < t /\ is_max_torque (pmsm_torque m) (dq_in_circle 3 i) t.
Proof.
  intros m lim nom i Hp Hpsi Hl Hi Hn.
  destruct (mtpa_root (pm_psi m) (pm_ld m - pm_lq m) i Hpsi ltac:(lra) Hi) as (R1 & R2 & R3 & R4 & R5).
  set (d0 := - (pm_psi m / (2 * (pm_ld m - pm_lq m))) / 2 - sqrt _) in R2, R3, R4, R5.
  set (q0 := sqrt (i * i - d0 * d0)).
  assert (Q0 : 0 < q0) by (apply sqrt_lt_R0; lra). assert (Q1 : q0 * q0 = i * i - d0 * d0) by (apply sqrt_sqrt; lra).
  set (t := 15 / 10 * pm_p m * (pm_psi m + (pm_ld m - pm_lq m) * d0) * q0). exists t.
  assert (M := mtpa_max (pm_psi m) (pm_ld m - pm_lq m) i d0 q0 Hpsi ltac:(lra) R2 Q0 ltac:(lra) ltac:(rewrite Q1; exact R4) R5).
  split; [|split].
  - unfold pmsm_torque_limit. rewrite reqF by lra. unfold dict_item. rewrite Hn. cbn [bind]. unfold np_sqrt at 1. rewrite rltF by exact R1.
    cbn [with_nan]. unfold np_sqrt. rewrite rltF by (fold d0; lra). cbn [with_nan]. reflexivity.
  - unfold t. apply Rmult_lt_0_compat; [|exact Q0]. apply Rmult_lt_0_compat; [lra|exact R5].
  - split.
    + exists [d0; q0; 0]. split; [|reflexivity]. split; [reflexivity|]. unfold in_circle. cbn [nth]. lra.
    + intros x t' [Hx Hc] E. destruct x as [|d [|q [|e [|f x]]]]; try discriminate Hx. unfold in_circle in Hc. cbn [nth] in Hc.
      cbn in E. injection E. intros <-. unfold t. specialize (M d q Hc). rewrite !Rmult_assoc. rewrite <- !(Rmult_assoc (15 / 10)).
      apply Rmult_le_compat_l; [lra|exact M].
Qed.
Print Assumptions pmsm_torque_limit_is_mtpa.

(** With l_d = l_q it is the largest torque for the current limit of the q axis. *)
Theorem pmsm_torque_limit_round :
  forall m lim nom i, 0 < pm_p m -> 0 <= pm_psi m -> pm_ld m = pm_lq m -> 0 <= i -> dict_get "i_sq"%string lim = Some i ->
  exists t, pmsm_torque_limit m lim nom = Ok (Some t) /\ is_max_torque (pmsm_torque m) (dq_in_circle 3 i) t.
Proof.
  intros m lim nom i Hp Hpsi Hl Hi Hn. exists (15 / 10 * pm_p m * (pm_psi m + (pm_ld m - pm_lq m) * 0) * i). split.
  - unfold pmsm_torque_limit. destruct (reqP (pm_ld m) (pm_lq m)); [|contradiction]. unfold dict_item. rewrite Hn. reflexivity.
  - split.
    + exists [0; i; 0]. split; [|reflexivity]. split; [reflexivity|]. unfold in_circle. cbn [nth]. lra.
    + intros x t' [Hx Hc] E. destruct x as [|d [|q [|e [|f x]]]]; try discriminate Hx. unfold in_circle in Hc. cbn [nth] in Hc.
      cbn in E. injection E. intros <-. rewrite Hl, Rminus_diag_eq by reflexivity. rewrite !Rmult_0_l, !Rplus_0_r.
      apply Rmult_le_compat_l; [|]. { apply Rmult_le_pos; lra. } nra.
Qed.
Print Assumptions pmsm_torque_limit_round.

(** The other saliency: the computed limit is NaN or not positive, although positive
    torque is reachable within the nominal current. *)
Theorem pmsm_torque_limit_inverse_saliency_refuted :
  forall m lim nom i, 0 < pm_p m -> 0 < pm_psi m -> pm_lq m < pm_ld m -> 0 < i -> dict_get "i"%string nom = Some i ->
  exists t, pmsm_torque_limit m lim nom = Ok t /\ (forall v, t = Some v -> v <= 0) /\
    exists x v, dq_in_circle 3 i x /\ pmsm_torque m x = Ok v /\ 0 < v.
Proof.
  intros m lim nom i Hp Hpsi Hl Hi Hn. set (a := pm_ld m - pm_lq m). assert (Ha : 0 < a) by (unfold a; lra).
  set (p := pm_psi m / (2 * a)). assert (Hpp : 0 < p) by (apply Rdiv_lt_0_compat; lra).
  assert (Ep : pm_psi m = 2 * a * p) by (unfold p; field; lra).
  set (D := p / 2 * (p / 2) - - (i * i) / 2). assert (HD : 0 < D) by (unfold D; nra).
  set (s := sqrt D). assert (Hs : 0 < s) by now apply sqrt_lt_R0. assert (Es : s * s = D) by (apply sqrt_sqrt; lra).
  set (d0 := - p / 2 - s).
  assert (K : pmsm_torque_limit m lim nom = with_nan (np_sqrt (i * i - d0 * d0)) (fun iq => some_r (pmsm_torque m [d0; iq; 0]))).
  { unfold pmsm_torque_limit. rewrite reqF by lra. unfold dict_item. rewrite Hn. cbn [bind]. unfold np_sqrt at 1. fold a. fold p. fold D.
    rewrite rltF by lra. reflexivity. }
  assert (W : exists x v, dq_in_circle 3 i x /\ pmsm_torque m x = Ok v /\ 0 < v).
  { exists [0; i; 0], (15 / 10 * pm_p m * (pm_psi m + (pm_ld m - pm_lq m) * 0) * i). split; [|split; [reflexivity|]].
    - split; [reflexivity|]. unfold in_circle. cbn [nth]. lra.
    - rewrite Rmult_0_r, Rplus_0_r. apply Rmult_lt_0_compat; [|exact Hi]. apply Rmult_lt_0_compat; lra. }
  unfold np_sqrt in K. destruct (rltP (i * i - d0 * d0) 0) as [N|N]; cbn [with_nan] in K.
  - exists None. split; [exact K|]. split; [discriminate|exact W].
  - exists (Some (15 / 10 * pm_p m * (pm_psi m + a * d0) * sqrt (i * i - d0 * d0))). split; [exact K|]. split; [|exact W].
    intros v E. injection E. intros <-. pose proof (sqrt_pos (i * i - d0 * d0)) as Hq.
    assert (Hsp : 3 / 2 * p <= s).
    { apply Rnot_lt_le. intros C. unfold d0, D in *. nra. }
    assert (HA : pm_psi m + a * d0 <= 0) by (rewrite Ep; unfold d0; nra).
    assert (H1 : 15 / 10 * pm_p m * (pm_psi m + a * d0) <= 0) by nra. nra.
Qed.
Print Assumptions pmsm_torque_limit_inverse_saliency_refuted.

(** Current vectors within the current limit exceed the torque limit as soon as the
    nominal current is below the limit current (class defaults: 240 and 400). *)
Theorem pmsm_torque_limit_below_current_limit_refuted :
  forall m lim nom i il, 0 < pm_p m -> 0 <= pm_psi m -> pm_ld m < pm_lq m -> 0 < i -> i < il -> dict_get "i"%string nom = Some i ->
  exists t, pmsm_torque_limit m lim nom = Ok (Some t) /\
    exists x v, dq_in_circle 3 il x /\ pmsm_torque m x = Ok v /\ t < v.
Proof.
  intros m lim nom i il Hp Hpsi Hl Hi Hil Hn.
  destruct (pmsm_torque_limit_is_mtpa m lim nom i Hp Hpsi Hl Hi Hn) as (t & E & Ht & (x & Hx & Ex) & _).
  exists t. split; [exact E|]. destruct Hx as [Hx Hc]. destruct x as [|d [|q [|e [|f x]]]]; try discriminate Hx.
  unfold in_circle in Hc. cbn [nth] in Hc. cbn in Ex. injection Ex. intros Et. set (c := il / i).
  assert (Hc1 : 1 < c) by (unfold c; apply (Rmult_lt_reg_r i); [lra|]; unfold Rdiv; rewrite Rmult_assoc, Rinv_l by lra; lra).
  assert (Ei : il = c * i) by (unfold c; field; lra).
  destruct (pmsm_torque_limit_is_mtpa m lim [("i"%string, il)] il Hp Hpsi Hl ltac:(lra) eq_refl) as (t2 & _ & _ & (x2 & Hx2 & Ex2) & M2).
  exists x2, t2. split; [exact Hx2|]. split; [exact Ex2|].
  assert (B := M2 [d; c * q; 0]).
  (* enlarge only the q component *)
  destruct (Rle_lt_dec (q * q) 0) as [Q|Q].
  { exfalso. assert (q = 0) by nra. subst q. rewrite Rmult_0_r in Et. lra. }
  set (c2 := sqrt (1 + (il * il - i * i) / (q * q))).
  assert (Hg : 0 < (il * il - i * i) / (q * q)) by (apply Rdiv_lt_0_compat; nra).
  assert (E2 : c2 * c2 = 1 + (il * il - i * i) / (q * q)) by (apply sqrt_sqrt; lra).
  assert (Hc2 : 1 < c2).
  { apply Rsqr_incrst_0; unfold Rsqr; [lra|lra|apply sqrt_pos]. }
  assert (L : t * c2 <= t2).
  { apply (M2 [d; c2 * q; 0]).
    - split; [reflexivity|]. unfold in_circle. cbn [nth].
      replace (c2 * q * (c2 * q)) with (c2 * c2 * (q * q)) by ring. rewrite E2.
      replace ((1 + (il * il - i * i) / (q * q)) * (q * q)) with (q * q + (il * il - i * i)) by (field; intros Z; rewrite Z in Q; lra). lra.
    - cbn. f_equal. rewrite <- Et. ring. }
  nra.
Qed.
Print Assumptions pmsm_torque_limit_below_current_limit_refuted.

(** The constructor stores that value: for every PMSM with l_d < l_q built without a
    torque entry, limit and nominal torque are the MTPA torque of the nominal current. *)
Theorem pmsm_torque_entry :
  forall m ul un res i il Ul Un, NoDup (dict_keys ul) -> NoDup (dict_keys un) ->
  0 < pm_p m -> 0 <= pm_psi m -> pm_ld m < pm_lq m ->
  is_set (lim_in (PMSM m) ul "i"%string) il -> is_set (nom_in (PMSM m) un "i"%string) i -> 0 < i ->
  is_set (lim_in (PMSM m) ul "u"%string) Ul -> is_set (nom_in (PMSM m) un "u"%string) Un ->
  dict_get "torque"%string ul = None -> dict_get "torque"%string un = None ->
  pmsm_new m ul un = Ok res ->
  exists t, tp_nan res = false /\ dict_get "torque"%string (tp_lim res) = Some t /\ dict_get "torque"%string (tp_nom res) = Some t /\
    is_max_torque (pmsm_torque m) (dq_in_circle 3 i) t.
Proof.
  intros m ul un res i il Ul Un Hul Hun Hp Hpsi Hl H1 H2 Hi H3 H4 T1 T2 E.
  change (pmsm_new m) with (tp_new (PMSM m)) in E. rewrite tp_new_eq in E.
  destruct (merged (tp_def_lim (PMSM m)) ul) as [lim|e] eqn:E1; [|discriminate]. cbn [bind] in E.
  destruct (merged (tp_def_nom (PMSM m)) un) as [nom|e] eqn:E2; [|discriminate]. cbn [bind] in E.
  destruct (merged_spec _ _ _ Hul (def_lim_nodup (PMSM m)) E1) as (_ & N1 & G1).
  destruct (merged_spec _ _ _ Hun (def_nom_nodup (PMSM m)) E2) as (_ & N2 & G2).
  assert (GL : forall k v, given lim k v <-> is_set (lim_in (PMSM m) ul k) v) by (intros k v; unfold given, is_set, lim_in; now rewrite G1).
  assert (GN : forall k v, given nom k v <-> is_set (nom_in (PMSM m) un k) v) by (intros k v; unfold given, is_set, nom_in; now rewrite G2).
  destruct (tp_names_ok (PMSM m)) as [NO NI].
  destruct (tp_update_torque (tp_omega (PMSM m)) (tp_r (PMSM m)) (tp_names (PMSM m)) (tp_tlimit (PMSM m)) lim nom Ul Un il i res N1 NO NI (proj2 (GL _ _) H1) (proj2 (GN _ _) H2) (proj2 (GL _ _) H3) (proj2 (GN _ _) H4))
    as (lim' & nom' & t & K1 & K2 & K3 & K4 & K5 & K6); [| |exact E|].
  - intros v Hv. apply GL in Hv. destruct Hv as [V1 V2]. unfold lim_in, chosen in V1. rewrite T1 in V1. injection V1. intros <-. now apply V2.
  - intros v Hv. apply GN in Hv. destruct Hv as [V1 V2]. unfold nom_in, chosen in V1. rewrite T2 in V1. injection V1. intros <-. now apply V2.
  - destruct (pmsm_torque_limit_is_mtpa m lim' nom' i Hp Hpsi Hl Hi K3) as (tq & F1 & F2 & F3). cbn [tp_tlimit] in K1. rewrite F1 in K1.
    injection K1. intros <-. exists tq. destruct (K6 tq eq_refl) as [K7 K8]. repeat split; auto; apply F3.
Qed.
Print Assumptions pmsm_torque_entry.

(** SynRM with l_d > l_q: the largest torque for the current limit; with l_d < l_q the
    value has the wrong sign. *)
Theorem synrm_torque_limit_is_max :
  forall m lim nom i, 0 < sr_p m -> sr_lq m <= sr_ld m -> 0 <= i ->
  dict_get "i_sd"%string lim = Some i -> dict_get "i_sq"%string lim = Some i ->
  exists t, synrm_torque_limit m lim nom = Ok (Some t) /\ is_max_torque (synrm_torque m) (dq_in_circle 3 i) t.
Proof.
  intros m lim nom i Hp Hl Hi H1 H2.
  exists (15 / 10 * sr_p m * ((sr_ld m - sr_lq m) * (i / sqrt 2)) * (i / sqrt 2)).
  assert (Hs : i / sqrt 2 * (i / sqrt 2) = i * i / 2).
  { pose proof sqrt2 as S2. pose proof sqrt2_pos as SP. replace (i / sqrt 2 * (i / sqrt 2)) with (i * i / (sqrt 2 * sqrt 2)) by (field; lra). now rewrite S2. }
  split; [|split].
  - unfold synrm_torque_limit, dict_item. rewrite H1, H2. reflexivity.
  - exists [i / sqrt 2; i / sqrt 2; 0]. split; [|reflexivity]. split; [reflexivity|]. unfold in_circle. cbn [nth]. rewrite Hs. lra.
  - intros x t' [Hx Hc] E. destruct x as [|d [|q [|e [|f x]]]]; try discriminate Hx. unfold in_circle in Hc. cbn [nth] in Hc.
    cbn in E. injection E. intros <-.
    replace (15 / 10 * sr_p m * ((sr_ld m - sr_lq m) * (i / sqrt 2)) * (i / sqrt 2)) with (15 / 10 * sr_p m * (sr_ld m - sr_lq m) * (i / sqrt 2 * (i / sqrt 2))) by ring.
    rewrite Hs. replace (15 / 10 * sr_p m * ((sr_ld m - sr_lq m) * d) * q) with (15 / 10 * sr_p m * (sr_ld m - sr_lq m) * (d * q)) by ring.
    apply Rmult_le_compat_l; [apply Rmult_le_pos; lra|]. pose proof (Rle_0_sqr (d - q)) as S. unfold Rsqr in S. lra.
Qed.
Print Assumptions synrm_torque_limit_is_max.

Theorem synrm_torque_limit_inverse_saliency_refuted :
  forall m lim nom i, 0 < sr_p m -> sr_ld m < sr_lq m -> 0 < i ->
  dict_get "i_sd"%string lim = Some i -> dict_get "i_sq"%string lim = Some i ->
  exists t, synrm_torque_limit m lim nom = Ok (Some t) /\ t < 0 /\
    exists x v, dq_in_circle 3 i x /\ synrm_torque m x = Ok v /\ 0 < v.
Proof.
  intros m lim nom i Hp Hl Hi H1 H2. pose proof sqrt2 as S2. pose proof sqrt2_pos as SP.
  set (y := i / sqrt 2). assert (Hy : 0 < y) by (apply Rdiv_lt_0_compat; lra).
  assert (Hs : y * y = i * i / 2).
  { unfold y. replace (i / sqrt 2 * (i / sqrt 2)) with (i * i / (sqrt 2 * sqrt 2)) by (field; lra). now rewrite S2. }
  exists (15 / 10 * sr_p m * ((sr_ld m - sr_lq m) * y) * y). split; [|split].
  - unfold synrm_torque_limit, dict_item. rewrite H1, H2. reflexivity.
  - replace (15 / 10 * sr_p m * ((sr_ld m - sr_lq m) * y) * y) with (- (15 / 10 * sr_p m * (sr_lq m - sr_ld m) * (y * y))) by ring.
    assert (0 < 15 / 10 * sr_p m * (sr_lq m - sr_ld m) * (y * y)); [|lra].
    apply Rmult_lt_0_compat; [apply Rmult_lt_0_compat; lra|nra].
  - exists [- y; y; 0], (15 / 10 * sr_p m * ((sr_ld m - sr_lq m) * - y) * y). split; [|split; [reflexivity|]].
    + split; [reflexivity|]. unfold in_circle. cbn [nth]. replace (- y * - y) with (y * y) by ring. rewrite Hs. lra.
    + replace (15 / 10 * sr_p m * ((sr_ld m - sr_lq m) * - y) * y) with (15 / 10 * sr_p m * (sr_lq m - sr_ld m) * (y * y)) by ring.
      apply Rmult_lt_0_compat; [apply Rmult_lt_0_compat; lra|nra].
Qed.
Print Assumptions synrm_torque_limit_inverse_saliency_refuted.

(** Induction motors: the largest stationary torque (rotor flux l_m i_d on the d axis)
    for the current limit. *)
Definition im_stationary (m : im_par) (i : R) (x : list R) : Prop :=
  exists d q, in_circle i d q /\ x = [d; q; im_lm m * d; 0; 0].
Theorem im_torque_limit_is_max :
  forall m lim nom i, 0 < im_p m -> 0 < im_lm m -> 0 <= im_lsigr m -> 0 <= i ->
  dict_get "i_sd"%string lim = Some i -> dict_get "i_sq"%string lim = Some i ->
  exists t, im_torque_limit m lim nom = Ok (Some t) /\ is_max_torque (im_torque m) (im_stationary m i) t.
Proof.
  intros m lim nom i Hp Hl Hs Hi H1 H2.
  exists (15 / 10 * im_p m * (im_lm m * im_lm m) / (im_lm m + im_lsigr m) * i * i / 2).
  pose proof sqrt2 as S2. pose proof sqrt2_pos as SP.
  set (y := i / sqrt 2). assert (Hy : y * y = i * i / 2).
  { unfold y. replace (i / sqrt 2 * (i / sqrt 2)) with (i * i / (sqrt 2 * sqrt 2)) by (field; lra). now rewrite S2. }
  split; [|split].
  - unfold im_torque_limit, dict_item. rewrite H1, H2. reflexivity.
  - exists [y; y; im_lm m * y; 0; 0]. split.
    + exists y, y. split; [unfold in_circle; lra|reflexivity].
    + cbn. f_equal. replace (im_lm m * y * y - 0 * y) with (im_lm m * (y * y)) by ring. rewrite Hy. field. lra.
  - intros x t' (d & q & Hc & ->) E. unfold in_circle in Hc. cbn in E. injection E. intros <-.
    replace (15 / 10 * im_p m * im_lm m / (im_lm m + im_lsigr m) * (im_lm m * d * q - 0 * d))
      with (15 / 10 * im_p m * (im_lm m * im_lm m) / (im_lm m + im_lsigr m) * (d * q)) by (field; lra).
    replace (15 / 10 * im_p m * (im_lm m * im_lm m) / (im_lm m + im_lsigr m) * i * i / 2)
      with (15 / 10 * im_p m * (im_lm m * im_lm m) / (im_lm m + im_lsigr m) * (i * i / 2)) by (field; lra).
    apply Rmult_le_compat_l.
    + apply Rlt_le, Rdiv_lt_0_compat; [|lra]. apply Rmult_lt_0_compat; [lra|nra].
    + pose proof (Rle_0_sqr (d - q)) as S. unfold Rsqr in S. lra.
Qed.
Print Assumptions im_torque_limit_is_max.
Example im_limit_case : exists t, im_torque_limit {| im_p := 2; im_lm := 1; im_lsigs := 1; im_lsigr := 1; im_rs := 1; im_rr := 1 |}
   [("i_sd", 4); ("i_sq", 4)]%string [] = Ok (Some t) /\ t = 12.
Proof. eexists. split; [cbn; reflexivity|cbn; lra]. Qed.

(** EESM: the computed operating point uses l_M i instead of l_m i_e, so for the class
    defaults more torque is reachable within the nominal current. *)
Theorem eesm_torque_limit_not_maximal_refuted :
  forall lim, dict_get "i_e"%string lim = Some 150 ->
  exists t, eesm_torque_limit eesm_default lim [("i"%string, 120)] = Ok (Some t) /\
    exists x v, length x = 4%nat /\ in_circle 120 (nth 0 x 0) (nth 1 x 0) /\ nth 2 x 0 = 150 /\ eesm_torque eesm_default x = Ok v /\ t + 18 < v.
Proof.
  intros lim He. set (m := eesm_default).
  assert (El : req (ee_ld m) (ee_lq m) = false) by (apply reqF; cbn; lra).
  assert (El2 : rlt (ee_ld m) (ee_lq m) = false) by (apply rltF; cbn; lra).
  set (p := ee_lM m * 120 / (2 * (ee_ld m - ee_lq m))). assert (Hp : 7000 < p) by (unfold p, ee_lM, m; cbn; lra).
  set (D := p / 2 * (p / 2) - - (120 * 120) / 2). assert (HD : 0 < D) by (unfold D; nra).
  set (s := sqrt D). assert (Hs : 0 < s) by now apply sqrt_lt_R0. assert (Es : s * s = D) by (apply sqrt_sqrt; lra).
  set (d0 := - p / 2 + s).
  assert (Hd0 : 0 < d0 < 3) by (unfold d0, D in *; split; nra).
  assert (Hd0' : d0 * d0 < 9) by nra.
  set (q0 := sqrt (120 * 120 - d0 * d0)). assert (Q1 : q0 * q0 = 120 * 120 - d0 * d0) by (apply sqrt_sqrt; lra).
  assert (Q0 : 0 <= q0) by apply sqrt_pos. assert (Q2 : q0 <= 120) by nra.
  exists (15 / 10 * ee_p m * (ee_lM m * 150 * ee_rs_ratio m + (ee_ld m - ee_lq m) * d0) * q0). split.
  - unfold eesm_torque_limit. rewrite El. unfold dict_item at 1. cbn [dict_get]. rewrite String.eqb_refl. cbn [bind]. rewrite El2. fold p. fold D.
    unfold np_sqrt at 1. rewrite rltF by lra. cbn [with_nan]. fold s. fold d0. unfold np_sqrt. rewrite rltF by lra. cbn [with_nan].
    unfold dict_item. rewrite He. cbn [bind]. reflexivity.
  - exists [50; 109; 150; 0], (15 / 10 * ee_p m * (ee_lM m * 150 * ee_rs_ratio m + (ee_ld m - ee_lq m) * 50) * 109).
    split; [reflexivity|]. split; [unfold in_circle; cbn; lra|]. split; [reflexivity|]. split; [reflexivity|].
    assert (Em : ee_lM m * 150 * ee_rs_ratio m = 23835 / 100000) by (unfold ee_lM, ee_rs_ratio, m; cbn; field).
    rewrite Em. change (ee_p m) with 3. change (ee_ld m) with (166 / 100000). change (ee_lq m) with (35 / 100000).
    assert (L1 : 23835 / 100000 + (166 / 100000 - 35 / 100000) * d0 <= 2424 / 10000) by lra.
    assert (L0 : 0 <= 23835 / 100000 + (166 / 100000 - 35 / 100000) * d0) by lra.
    set (w := 23835 / 100000 + (166 / 100000 - 35 / 100000) * d0) in *.
    assert (L2 : w * q0 <= 2424 / 10000 * 120) by (apply Rmult_le_compat; assumption).
    rewrite (Rmult_assoc (15 / 10 * 3) w q0). clear - L2. lra.
Qed.
Print Assumptions eesm_torque_limit_not_maximal_refuted.

(** DC motors keep the class default torque limit of 38 Nm whatever the currents are;
    with the default parameters the current limits allow 74.97 Nm. *)
Definition dc_default : dc_par := {| dc_ra := 16 / 1000; dc_re := 16 / 100; dc_la := 19 / 1000000; dc_lep := 17 / 10000; dc_le := 54 / 10000 |}.
Theorem dc_torque_limit_not_from_currents_refuted :
  exists r, extex_new dc_default [] [] = Ok r /\ dict_get "torque"%string (fst r) = Some 38 /\
    dict_get "i_a"%string (fst r) = Some 210 /\ dict_get "i_e"%string (fst r) = Some 210 /\
    exists v, dc_torque dc_default [210; 210] = Ok v /\ 38 < v.
Proof.
  unfold extex_new, construct. change (merged dc_default_limits []) with (@Ok (dict R) dc_default_limits).
  change (merged dc_default_nominal []) with (@Ok (dict R) dc_default_nominal). cbn [bind]. unfold extex_update.
  change (dict_get "i"%string dc_default_limits) with (Some 210). cbn [py_or]. rewrite reqF by lra. cbn [bind]. unfold dc_update.
  change (items ["i_a"; "i_e"]%string dc_default_limits) with (@Ok (list R) [210; 210]). cbn [bind].
  change (dc_torque dc_default [210; 210]) with (Ok (dc_lep dc_default * 210 * 210)) at 1. cbn [bind].
  set (ag := dict_set "torque"%string _ _). assert (Ha : NoDup (dict_keys ag)) by (apply dict_set_nodup, nodup_strings; reflexivity).
  eexists. split; [reflexivity|]. rewrite !(base_update_limits 400 dc_default_limits dc_default_nominal ag [] Ha).
  change (dict_get "torque"%string dc_default_limits) with (Some 38). change (dict_get "i_a"%string dc_default_limits) with (Some 210).
  change (dict_get "i_e"%string dc_default_limits) with (Some 210). cbv beta iota. rewrite !reqF by lra.
  split; [reflexivity|]. split; [reflexivity|]. split; [reflexivity|].
  exists (dc_lep dc_default * 210 * 210). split; [reflexivity|]. cbn. lra.
Qed.
Print Assumptions dc_torque_limit_not_from_currents_refuted.

(** If the user clears the torque entry (0), the DC limit is the largest torque of the
    box of current limits. *)
Theorem dc_torque_limit_is_max :
  forall m ia ie, 0 <= dc_lep m -> 0 <= ia -> 0 <= ie ->
  exists t, dc_torque m [ia; ie] = Ok t /\ is_max_torque (dc_torque m) (in_box [ia; ie]) t.
Proof.
  intros m ia ie Hl Ha He. exists (dc_lep m * ia * ie). split; [reflexivity|]. split.
  - exists [ia; ie]. split; [|reflexivity]. split; [reflexivity|]. intros [|[|k]] Hk; cbn [nth length] in *; [| |lia]; rewrite Rabs_right; lra.
  - intros x t' [Hx Hb] E. destruct x as [|a [|e [|f x]]]; try discriminate Hx. cbn in E. injection E. intros <-.
    assert (B0 := Hb 0%nat ltac:(cbn; lia)). assert (B1 := Hb 1%nat ltac:(cbn; lia)). cbn [nth] in B0, B1.
    rewrite !Rmult_assoc. apply Rmult_le_compat_l; [exact Hl|]. apply (Rle_trans _ (Rabs (a * e))); [apply Rle_abs|].
    rewrite Rabs_mult. apply Rmult_le_compat; auto using Rabs_pos.
Qed.
Print Assumptions dc_torque_limit_is_max.
Theorem extex_cleared_torque_filled :
  forall m ia ie i, i <> 0 -> exists r, extex_new m [("torque", 0); ("i_a", ia); ("i_e", ie); ("i", i)]%string [] = Ok r /\
    dict_get "torque"%string (fst r) = Some (dc_lep m * ia * ie).
Proof.
  intros m ia ie i Hi. unfold extex_new, construct.
  set (ul := [("torque", 0); ("i_a", ia); ("i_e", ie); ("i", i)]%string).
  assert (Eul : merged dc_default_limits ul = Ok (dict_update dc_default_limits ul)) by reflexivity. rewrite Eul. cbn [bind].
  change (merged dc_default_nominal []) with (@Ok (dict R) dc_default_nominal). cbn [bind]. unfold extex_update.
  set (lim := dict_update dc_default_limits ul). change (dict_get "i"%string lim) with (Some i). cbn [py_or]. rewrite reqF by exact Hi. cbn [bind].
  unfold dc_update. change (items ["i_a"; "i_e"]%string lim) with (@Ok (list R) [ia; ie]). cbn [bind].
  change (dc_torque m [ia; ie]) with (Ok (dc_lep m * ia * ie)). cbn [bind].
  set (ag := dict_set "torque"%string _ _). assert (Ha : NoDup (dict_keys ag)) by (apply dict_set_nodup, nodup_strings; reflexivity).
  eexists. split; [reflexivity|]. rewrite (base_update_limits 400 lim dc_default_nominal ag [] Ha).
  change (dict_get "torque"%string lim) with (Some 0). cbv beta iota.
  assert (Z : req 0 0 = true) by (destruct (reqP 0 0); congruence). rewrite Z.
  rewrite dict_get_set_other by discriminate. unfold ag. rewrite dict_get_set_same. reflexivity.
Qed.
Print Assumptions extex_cleared_torque_filled.

(** ** C84: documented entries *)
(** The documented per phase entries are refused by every three phase motor (only the
    EESM knows one of them, [i_e]). *)
Theorem phase_limit_entries_refused_refuted :
  forall m u i v ul un, In (u, i) (tp_names m) -> NoDup (dict_keys ul) ->
  (dict_get u ul = Some v \/ (i <> "i_e"%string /\ dict_get i ul = Some v)) -> tp_new m ul un = Err KeyError.
Proof.
  intros m u i v ul un Hin Hul Hv. rewrite tp_new_eq.
  assert (A : ~ In u (dict_keys (tp_def_lim m)) /\ (i <> "i_e"%string -> ~ In i (dict_keys (tp_def_lim m)))).
  { assert (F : forall l s, str_in s l = false -> ~ In s l) by (intros l s; apply str_in_false).
    assert (B : forallb (fun ui => negb (str_in (fst ui) (dict_keys (tp_def_lim m))) &&
                 (String.eqb (snd ui) "i_e" || negb (str_in (snd ui) (dict_keys (tp_def_lim m))))) (tp_names m) = true) by (destruct m; reflexivity).
    rewrite forallb_forall in B. apply B in Hin. cbn [fst snd] in Hin. apply andb_prop in Hin. destruct Hin as [B1 B2].
    split; [apply F; now destruct (str_in u _)|]. intros Hne. apply F. destruct (String.eqb_spec i "i_e"); [contradiction|]. cbn in B2.
    now destruct (str_in i _). }
  destruct Hv as [Hv|[Hne Hv]].
  - rewrite (merged_refuses _ _ Hul u); [reflexivity| |exact (proj1 A)]. apply dict_get_some_iff. eauto.
  - rewrite (merged_refuses _ _ Hul i); [reflexivity| |exact (proj2 A Hne)]. apply dict_get_some_iff. eauto.
Qed.
Print Assumptions phase_limit_entries_refused_refuted.
Example phase_limit_entries_case : pmsm_new pmsm_default [("i_a"%string, 300)] [] = Err KeyError.
Proof. reflexivity. Qed.

(** Clearing the general current limit ([i = 0], which the code treats as "infer it from
    u and r_s") raises KeyError for every three phase motor. *)
Theorem zero_current_limit_refused_refuted :
  forall m ul un, NoDup (dict_keys ul) -> NoDup (dict_keys un) ->
  (forall k, In k (dict_keys ul) -> In k (dict_keys (tp_def_lim m))) ->
  (forall k, In k (dict_keys un) -> In k (dict_keys (tp_def_nom m))) ->
  dict_get "i"%string ul = Some 0 -> tp_new m ul un = Err KeyError.
Proof.
  intros m ul un Hul Hun Kl Kn Hi. rewrite tp_new_eq.
  destruct (merged_ok _ _ Hul Kl) as [lim E1]. destruct (merged_ok _ _ Hun Kn) as [nom E2]. rewrite E1, E2. cbn [bind].
  destruct (merged_spec _ _ _ Hul (def_lim_nodup m) E1) as (_ & N1 & G1).
  destruct (merged_spec _ _ _ Hun (def_nom_nodup m) E2) as (_ & N2 & G2).
  assert (D : forall (d u : dict R), In "u"%string (dict_keys d) -> exists v, chosen d u "u"%string = Some v).
  { intros d u K. unfold chosen. destruct (dict_get "u"%string u); [eauto|]. now apply dict_get_some_iff. }
  assert (Du : forall (d : dict R), str_in "u"%string (dict_keys d) = true -> In "u"%string (dict_keys d)) by (intros d; apply str_in_true).
  destruct (D (tp_def_lim m) ul) as [Ul EU]; [apply Du; destruct m; reflexivity|].
  destruct (D (tp_def_nom m) un) as [Un EUn]; [apply Du; destruct m; reflexivity|].
  unfold tp_update. unfold dict_item at 1. unfold dict_item at 1. rewrite G1, G2, EU, EUn. cbn [bind].
  assert (A : agenda lim (1 / 2 * Ul) (tp_r m) (tp_names m) [] = Err KeyError); [|now rewrite A].
  assert (Ei : dict_get "i"%string lim = Some 0) by (rewrite G1; unfold chosen; now rewrite Hi).
  assert (Z : req 0 0 = true) by (destruct (reqP 0 0); congruence).
  assert (F : exists u i rest, tp_names m = (u, i) :: rest /\ ~ In u (dict_keys (tp_def_lim m))).
  { destruct m; eexists; eexists; eexists; (split; [reflexivity|]); apply str_in_false; reflexivity. }
  destruct F as (u & i & rest & -> & Hu). cbn [agenda]. rewrite Ei. cbn [py_or]. rewrite Z.
  unfold dict_item. rewrite G1. unfold chosen.
  assert (H1 : dict_get u ul = None) by (apply dict_get_none; intros K; apply Hu, Kl, K).
  assert (H2 : dict_get u (tp_def_lim m) = None) by now apply dict_get_none.
  now rewrite H1, H2.
Qed.
Print Assumptions zero_current_limit_refused_refuted.
Example zero_current_limit_case : scim_new {| im_p := 2; im_lm := 1; im_lsigs := 1; im_lsigr := 1; im_rs := 1; im_rr := 1 |} [("i"%string, 0)] [] = Err KeyError.
Proof.
  apply (zero_current_limit_refused_refuted (SCIM {| im_p := 2; im_lm := 1; im_lsigs := 1; im_lsigr := 1; im_rs := 1; im_rr := 1 |})).
  - apply nodup_strings. reflexivity.
  - apply nodup_strings. reflexivity.
  - intros k [<-|[]]. right. right. now left.
  - intros k [].
  - reflexivity.
Qed.

(** ** C85: nominal values the user leaves out *)
(** "If not specified, nominal values are equal to their corresponding limit values":
    for every three phase motor a current limit below the class' nominal current leaves
    the nominal current above the limit. *)
Theorem nominal_follows_limit_refuted :
  forall m i, 0 < i -> (forall n, dict_get "i"%string (tp_def_nom m) = Some n -> i < n) ->
  exists res n, tp_new m [("i"%string, i)] [] = Ok res /\ dict_get "i"%string (tp_lim res) = Some i /\
    dict_get "i"%string (tp_nom res) = Some n /\ i < n.
Proof.
  intros m i Hi Hn.
  assert (N1 : NoDup (dict_keys [("i"%string, i)])) by (apply nodup_strings; reflexivity).
  assert (N2 : NoDup (dict_keys (@nil (string * R)))) by (apply nodup_strings; reflexivity).
  assert (En : exists n, dict_get "i"%string (tp_def_nom m) = Some n) by (destruct m; cbn; eauto).
  destruct En as [n En]. assert (Hin := Hn n En).
  assert (Eu : exists u, dict_get "u"%string (tp_def_lim m) = Some u /\ u <> 0) by (destruct m; cbn; eexists; split; try reflexivity; lra).
  assert (Eun : exists u, dict_get "u"%string (tp_def_nom m) = Some u /\ u <> 0) by (destruct m; cbn; eexists; split; try reflexivity; lra).
  destruct Eu as [u [Eu Zu]]. destruct Eun as [un [Eun Zun]].
  assert (A1 : is_set (lim_in m [("i"%string, i)] "i"%string) i) by (split; [reflexivity|lra]).
  assert (A2 : is_set (nom_in m [] "i"%string) n) by (split; [exact En|lra]).
  assert (A3 : is_set (lim_in m [("i"%string, i)] "u"%string) u) by (split; [exact Eu|lra]).
  assert (A4 : is_set (nom_in m [] "u"%string) un) by (split; [exact Eun|lra]).
  destruct (three_phase_constructor_total m [("i"%string, i)] [] i n N1 N2) as [res E]; auto.
  - intros k [<-|[]]. apply str_in_true. destruct m; reflexivity.
  - intros k [].
  - exists res, n. split; [exact E|].
    destruct (three_phase_limits_completed m _ _ res i n u un N1 N2 A1 A2 A3 A4 E) as (B1 & B2 & _). auto.
Qed.
Print Assumptions nominal_follows_limit_refuted.
Example nominal_follows_limit_case : exists res n, pmsm_new pmsm_default [("i"%string, 100)] [] = Ok res /\
  dict_get "i"%string (tp_lim res) = Some 100 /\ dict_get "i"%string (tp_nom res) = Some n /\ 100 < n.
Proof. apply (nominal_follows_limit_refuted (PMSM pmsm_default)); [lra|]. intros n E. injection E. intros <-. lra. Qed.

(** ** C111: cleared current limits of DC motors *)
(** A cleared current limit becomes the stationary current at standstill under the voltage
    limit: with that current and voltage the electrical circuits are at rest. *)
Theorem dc_cleared_current_limits :
  (forall m u, u <> 0 -> dc_ra m <> 0 -> dc_ra m + dc_re m <> 0 ->
     exists r i, series_new m [("u", u); ("i", 0)]%string [] = Ok r /\ dict_get "u"%string (fst r) = Some u /\ dict_get "i"%string (fst r) = Some i /\ series_ode m [i] [u] 0 = Ok [0]) /\
  (forall m u, u <> 0 -> pe_ra m <> 0 ->
     exists r i, perm_new m [("u", u); ("i", 0)]%string [] = Ok r /\ dict_get "u"%string (fst r) = Some u /\ dict_get "i"%string (fst r) = Some i /\ perm_ode m [i] [u] 0 = Ok [0]) /\
  (forall m u, u <> 0 -> dc_ra m <> 0 -> dc_re m <> 0 ->
     exists r ia ie, shunt_new m [("u", u); ("i", 0); ("i_a", 0); ("i_e", 0)]%string [] = Ok r /\ dict_get "u"%string (fst r) = Some u /\
       dict_get "i_a"%string (fst r) = Some ia /\ dict_get "i_e"%string (fst r) = Some ie /\ shunt_ode m [ia; ie] [u] 0 = Ok [0; 0]) /\
  (forall m u, u <> 0 -> dc_ra m <> 0 -> dc_re m <> 0 ->
     exists r ia ie, extex_new m [("u", u); ("i", 0); ("i_a", 0); ("i_e", 0)]%string [] = Ok r /\
       dict_get "i_a"%string (fst r) = Some ia /\ dict_get "i_e"%string (fst r) = Some ie /\ dc_ode m [ia; ie] [u; u] 0 = Ok [0; 0]).
Proof.
  assert (Z : req 0 0 = true) by (destruct (reqP 0 0); congruence).
  split; [|split; [|split]].
  - intros m u Hu Hra Hr. unfold series_new, construct. set (ul := [("u", u); ("i", 0)]%string).
    assert (Eul : merged dc_default_limits ul = Ok (dict_update dc_default_limits ul)) by reflexivity. rewrite Eul. cbn [bind].
    change (merged dc_default_nominal []) with (@Ok (dict R) dc_default_nominal). cbn [bind]. unfold series_update.
    set (lim := dict_update dc_default_limits ul). change (dict_item "u"%string lim) with (Ok u). cbn [bind]. unfold py_div, guard_ra. rewrite (reqF (dc_ra m)) by exact Hra. rewrite reqF by exact Hr. cbn [bind].
    unfold dc_update. change (items ["i"]%string lim) with (@Ok (list R) [0]). cbn [bind]. change (series_torque m [0]) with (Ok (dc_lep m * 0 * 0)). cbn [bind].
    set (ag := dict_set "torque"%string _ _). assert (Ha : NoDup (dict_keys ag)) by (apply dict_set_nodup, nodup_strings; reflexivity).
    eexists. exists (u / (dc_ra m + dc_re m)). split; [reflexivity|]. rewrite !(base_update_limits 400 lim dc_default_nominal ag [] Ha).
    change (dict_get "u"%string lim) with (Some u). change (dict_get "i"%string lim) with (Some 0). cbv beta iota. rewrite Z, (reqF u) by exact Hu.
    split; [reflexivity|]. rewrite dict_get_set_other by discriminate. unfold ag. rewrite dict_get_set_other by discriminate. split; [reflexivity|].
    unfold series_ode, series_constants. cbn. f_equal. f_equal. unfold Rdiv. set (d := / (dc_la m + dc_le m)). clearbody d. field. exact Hr.
  - intros m u Hu Hra. unfold perm_new, construct. set (ul := [("u", u); ("i", 0)]%string).
    assert (Eul : merged perm_default_limits ul = Ok (dict_update perm_default_limits ul)) by reflexivity. rewrite Eul. cbn [bind].
    change (merged perm_default_nominal []) with (@Ok (dict R) perm_default_nominal). cbn [bind]. unfold perm_update.
    set (lim := dict_update perm_default_limits ul). change (dict_item "u"%string lim) with (Ok u). cbn [bind]. unfold py_div, guard_ra. rewrite (reqF (pe_ra m)) by exact Hra. rewrite reqF by exact Hra. cbn [bind].
    unfold dc_update. change (items ["i"]%string lim) with (@Ok (list R) [0]). cbn [bind]. change (perm_torque m [0]) with (Ok (pe_psi m * 0)). cbn [bind].
    set (ag := dict_set "torque"%string _ _). assert (Ha : NoDup (dict_keys ag)) by (apply dict_set_nodup, nodup_strings; reflexivity).
    eexists. exists (u / pe_ra m). split; [reflexivity|]. rewrite !(base_update_limits 400 lim perm_default_nominal ag [] Ha).
    change (dict_get "u"%string lim) with (Some u). change (dict_get "i"%string lim) with (Some 0). cbv beta iota. rewrite Z, (reqF u) by exact Hu.
    split; [reflexivity|]. rewrite dict_get_set_other by discriminate. unfold ag. rewrite dict_get_set_other by discriminate. split; [reflexivity|].
    unfold perm_ode, perm_constants. cbn. f_equal. f_equal. unfold Rdiv. set (d := / pe_la m). clearbody d. field. exact Hra.
  - intros m u Hu Hra Hre. unfold shunt_new, construct. set (ul := [("u", u); ("i", 0); ("i_a", 0); ("i_e", 0)]%string).
    assert (Eul : merged dc_default_limits ul = Ok (dict_update dc_default_limits ul)) by reflexivity. rewrite Eul. cbn [bind].
    change (merged dc_default_nominal []) with (@Ok (dict R) dc_default_nominal). cbn [bind]. unfold shunt_update.
    set (lim := dict_update dc_default_limits ul). change (dict_item "u"%string lim) with (Ok u). change (dict_get "i"%string lim) with (Some 0). cbn [bind py_or]. rewrite Z. unfold py_div, guard_ra. rewrite !(reqF (dc_ra m)) by exact Hra. rewrite !(reqF (dc_re m)) by exact Hre. cbn [bind].
    unfold dc_update. change (items ["i_a"; "i_e"]%string lim) with (@Ok (list R) [0; 0]). cbn [bind]. change (dc_torque m [0; 0]) with (Ok (dc_lep m * 0 * 0)). cbn [bind].
    set (ag := dict_set "torque"%string _ _). assert (Ha : NoDup (dict_keys ag)) by (apply dict_set_nodup, nodup_strings; reflexivity).
    eexists. exists (u / dc_ra m), (u / dc_re m). split; [reflexivity|]. rewrite !(base_update_limits 400 lim dc_default_nominal ag [] Ha).
    change (dict_get "u"%string lim) with (Some u). change (dict_get "i_a"%string lim) with (Some 0). change (dict_get "i_e"%string lim) with (Some 0). cbv beta iota. rewrite Z, (reqF u) by exact Hu.
    split; [reflexivity|]. rewrite !dict_get_set_other by discriminate. unfold ag. rewrite !dict_get_set_other by discriminate. split; [reflexivity|]. split; [reflexivity|].
    unfold shunt_ode, dc_ode, dc_constants. cbn. unfold Rdiv. set (d := / dc_la m). set (e := / dc_le m). clearbody d e. f_equal. f_equal; [field; auto|f_equal; field; auto].
  - intros m u Hu Hra Hre. unfold extex_new, construct. set (ul := [("u", u); ("i", 0); ("i_a", 0); ("i_e", 0)]%string).
    assert (Eul : merged dc_default_limits ul = Ok (dict_update dc_default_limits ul)) by reflexivity. rewrite Eul. cbn [bind].
    change (merged dc_default_nominal []) with (@Ok (dict R) dc_default_nominal). cbn [bind]. unfold extex_update.
    set (lim := dict_update dc_default_limits ul). change (dict_item "u"%string lim) with (Ok u). change (dict_get "i"%string lim) with (Some 0). cbn [bind py_or]. rewrite Z. unfold py_div, guard_ra. rewrite !(reqF (dc_ra m)) by exact Hra. rewrite !(reqF (dc_re m)) by exact Hre. cbn [bind].
    unfold dc_update. change (items ["i_a"; "i_e"]%string lim) with (@Ok (list R) [0; 0]). cbn [bind]. change (dc_torque m [0; 0]) with (Ok (dc_lep m * 0 * 0)). cbn [bind].
    set (ag := dict_set "torque"%string _ _). assert (Ha : NoDup (dict_keys ag)) by (apply dict_set_nodup, nodup_strings; reflexivity).
    eexists. exists (u / dc_ra m), (u / dc_re m). split; [reflexivity|]. rewrite !(base_update_limits 400 lim dc_default_nominal ag [] Ha).
    change (dict_get "u"%string lim) with (Some u). change (dict_get "i_a"%string lim) with (Some 0). change (dict_get "i_e"%string lim) with (Some 0). cbv beta iota. rewrite Z.
    rewrite !dict_get_set_other by discriminate. unfold ag. rewrite !dict_get_set_other by discriminate. split; [reflexivity|]. split; [reflexivity|].
    unfold shunt_ode, dc_ode, dc_constants. cbn. unfold Rdiv. set (d := / dc_la m). set (e := / dc_le m). clearbody d e. f_equal. f_equal; [field; auto|f_equal; field; auto].
Qed.
Print Assumptions dc_cleared_current_limits.
Example dc_cleared_example : exists r i, series_new dc_default [("u", 60); ("i", 0)]%string [] = Ok r /\ dict_get "i"%string (fst r) = Some i /\ i = 60 / (176 / 1000).
Proof.
  destruct (proj1 dc_cleared_current_limits dc_default 60 ltac:(lra) ltac:(cbn; lra) ltac:(cbn; lra)) as (r & i & E & _ & Hi & Ho). exists r, i. split; [exact E|]. split; [exact Hi|].
  unfold series_ode, series_constants in Ho. cbn in Ho. injection Ho as Ho. lra.
Qed.
