(** Properties of the cascaded controllers of gem_controllers: C122 and C123. *)
From Verif Require Import PyBaseFacts PyDictFacts Transform_Model Conv_Model Wrap_Model Ctl_Model Ops_Model Emf_Props Ctl_Model2 Ctl_Spec Ctl_Proofs Ctl_Proofs2 Ctl_Props Ctl_Props2.
Local Open Scope string_scope. Local Open Scope list_scope. Local Open Scope R_scope.

(** A history of a controller: calls of [control] with state and reference, and calls of [reset].
    Calls that raise are part of the history as well. *)
Inductive cop := Ctrl (s r : list R) | Rst.
Section History.
Context {O : Type} (op : ops O).
Definition cstep (k : inner O) (x : cop) : inner O := match x with Ctrl s r => fst (inner_control op k s r) | Rst => inner_reset op k end.
Definition after (h : list cop) (k : inner O) : inner O := fold_left cstep h k.
(** The results of an episode, call by call. *)
Fixpoint outputs (k : inner O) (ep : list (list R * list R)) : list (res (list R)) :=
  match ep with [] => [] | (s, r) :: l => snd (inner_control op k s r) :: outputs (fst (inner_control op k s r)) l end.
(** The base controllers of all stages *)
Definition bases (k : inner O) : list base :=
  match k with ICur c => [cc_base c] | ITor c => [cc_base (tc_cc c)] | ISpd c => [sc_base c; cc_base (tc_cc (sc_tc c))] end.

(** Attributes that are written but never read: stored voltages and references, and the clipping difference of the speed controller. *)
Definition s_cc (c : cctl) : cctl := cc_upd c (cc_base c) (cc_clip c) [].
Definition s_cl (c : cstage) : cstage := {| cs_task := cs_task c; cs_clip := cs_clip c; cs_diff := [] |}.
Definition s_tc (c : tctl O) : tctl O := tc_upd c (s_cc (tc_cc c)) (tc_ops c) (s_cl (tc_clip c)) [].
Definition s_sc (c : sctl O) : sctl O := sc_upd c (sc_base c) (s_tc (sc_tc c)) [] (s_cl (sc_clip c)).
Definition strip (k : inner O) : inner O := match k with ICur c => ICur (s_cc c) | ITor c => ITor (s_tc c) | ISpd c => ISpd (s_sc c) end.

Lemma strip_clip c r : snd (clip_call (s_cl c) r) = snd (clip_call c r) /\ s_cl (fst (clip_call (s_cl c) r)) = s_cl (fst (clip_call c r)) /\
  (forall y, snd (clip_call c r) = Ok y -> fst (clip_call (s_cl c) r) = fst (clip_call c r)).
Proof. unfold clip_call, s_cl; cbn. destruct (clipped (cs_clip c) r) as [y|x]; cbn; [|repeat split; congruence]. destruct (np_bin Rminus r y); cbn; repeat split; congruence. Qed.
Lemma strip_cc c s r : snd (current_control (s_cc c) s r) = snd (current_control c s r) /\ s_cc (fst (current_control (s_cc c) s r)) = s_cc (fst (current_control c s r)).
Proof.
  unfold current_control, s_cc; cbn. destruct (base_call (cc_base c) s r) as [b u0]. destruct (bind u0 _) as [u|]; cbn; [|split; reflexivity].
  destruct (clip_call (cc_clip c) u) as [cl [v|]]; cbn; [|split; reflexivity]. destruct (if cc_req c then _ else _); cbn; [|split; reflexivity].
  destruct (has_integrator b); cbn; [|split; reflexivity]. destruct (bind (windup_call _ _ _ _) _); cbn; split; reflexivity.
Qed.
Lemma strip_cctl c s r : snd (cc_control (s_cc c) s r) = snd (cc_control c s r) /\ s_cc (fst (cc_control (s_cc c) s r)) = s_cc (fst (cc_control c s r)).
Proof.
  unfold cc_control. pose proof (strip_cc c s r) as [H1 H2]. destruct (current_control (s_cc c) s r) as [c1 r1], (current_control c s r) as [c2 r2]. cbn in *. subst r1.
  destruct r2; cbn; split; auto; unfold s_cc in *; cbn in *; congruence.
Qed.
Lemma strip_tc c s r : snd (tc_control op (s_tc c) s r) = snd (tc_control op c s r) /\ s_tc (fst (tc_control op (s_tc c) s r)) = s_tc (fst (tc_control op c s r)).
Proof.
  unfold tc_control. cbn [s_tc tc_upd tc_ops tc_clip tc_cc]. destruct (o_call op (tc_ops c) s r) as [o [i|]]; cbn; [|split; reflexivity].
  destruct (strip_clip (tc_clip c) i) as (H1 & H2 & H3). destruct (clip_call (s_cl (tc_clip c)) i) as [cl1 j1], (clip_call (tc_clip c) i) as [cl2 j2]. cbn in *. subst j1.
  destruct j2 as [j|]; cbn.
  - pose proof (strip_cc (tc_cc c) s j) as [G1 G2]. destruct (current_control (s_cc (tc_cc c)) s j) as [c1 r1], (current_control (tc_cc c) s j) as [c2 r2]. cbn in *. subst r1. split; [reflexivity|].
    unfold s_tc; cbn. rewrite G2, H2. reflexivity.
  - split; [reflexivity|]. unfold s_tc; cbn. rewrite H2. unfold s_cc. reflexivity.
Qed.
Lemma strip_speed c s r : snd (speed_control (s_sc c) s r) = snd (speed_control c s r) /\ s_sc (fst (speed_control (s_sc c) s r)) = s_sc (fst (speed_control c s r)).
Proof.
  unfold speed_control. cbn [s_sc sc_upd sc_base sc_clip sc_tc sc_aw]. destruct (base_call (sc_base c) s r) as [b [t|]]; [|split; reflexivity].
  destruct (strip_clip (sc_clip c) t) as (H1 & H2 & H3). destruct (clip_call (s_cl (sc_clip c)) t) as [cl1 v1], (clip_call (sc_clip c) t) as [cl2 v2]. cbn in H1, H2, H3. subst v1.
  destruct v2 as [v|]; [|cbn; split; [reflexivity|]; unfold s_sc; cbn; rewrite H2; reflexivity]. rewrite (H3 v eq_refl).
  destruct (has_integrator b); [|split; reflexivity]. destruct (bind (windup_call _ _ _ _) _); cbn; split; reflexivity.
Qed.
Lemma s_sc_parts c1 c2 : s_sc c1 = s_sc c2 -> sc_base c1 = sc_base c2 /\ s_tc (sc_tc c1) = s_tc (sc_tc c2) /\ s_cl (sc_clip c1) = s_cl (sc_clip c2) /\ sc_aw c1 = sc_aw c2.
Proof. intros H. repeat split; [exact (f_equal sc_base H)|exact (f_equal sc_tc H)|exact (f_equal sc_clip H)|exact (f_equal sc_aw H)]. Qed.
Lemma strip_sc c s r : snd (sc_control op (s_sc c) s r) = snd (sc_control op c s r) /\ s_sc (fst (sc_control op (s_sc c) s r)) = s_sc (fst (sc_control op c s r)).
Proof.
  unfold sc_control. pose proof (strip_speed c s r) as [H1 H2]. destruct (speed_control (s_sc c) s r) as [c1 t1], (speed_control c s r) as [c2 t2]. cbn in H1, H2. subst t1.
  destruct t2 as [t|]; [|split; [reflexivity|exact H2]]. destruct (s_sc_parts _ _ H2) as (P1 & P2 & P3 & P4).
  pose proof (strip_tc (sc_tc c1) s t) as [A1 A2]. pose proof (strip_tc (sc_tc c2) s t) as [B1 B2]. rewrite P2 in A1, A2.
  destruct (tc_control op (s_tc (sc_tc c2)) s t) as [x y], (tc_control op (sc_tc c1) s t) as [x1 y1], (tc_control op (sc_tc c2) s t) as [x2 y2]. cbn in *. split; [congruence|].
  unfold s_sc, sc_upd; cbn. rewrite P1, P3, P4. f_equal. congruence.
Qed.
Lemma strip_control k1 k2 s r : strip k1 = strip k2 -> snd (inner_control op k1 s r) = snd (inner_control op k2 s r) /\ strip (fst (inner_control op k1 s r)) = strip (fst (inner_control op k2 s r)).
Proof.
  intros H. destruct k1 as [c1|c1|c1], k2 as [c2|c2|c2]; try discriminate H; cbn in *.
  - assert (E : s_cc c1 = s_cc c2) by congruence. pose proof (strip_cctl c1 s r) as [A1 A2]. pose proof (strip_cctl c2 s r) as [B1 B2]. rewrite E in A1, A2.
    destruct (cc_control c1 s r), (cc_control c2 s r). cbn in *. split; congruence.
  - assert (E : s_tc c1 = s_tc c2) by congruence. pose proof (strip_tc c1 s r) as [A1 A2]. pose proof (strip_tc c2 s r) as [B1 B2]. rewrite E in A1, A2.
    destruct (tc_control op c1 s r), (tc_control op c2 s r). cbn in *. split; congruence.
  - assert (E : s_sc c1 = s_sc c2) by congruence. pose proof (strip_sc c1 s r) as [A1 A2]. pose proof (strip_sc c2 s r) as [B1 B2]. rewrite E in A1, A2.
    destruct (sc_control op c1 s r), (sc_control op c2 s r). cbn in *. split; congruence.
Qed.
Lemma strip_outputs ep : forall k1 k2, strip k1 = strip k2 -> outputs k1 ep = outputs k2 ep.
Proof. induction ep as [|[s r] ep IH]; intros k1 k2 H; [reflexivity|]. cbn. destruct (strip_control k1 k2 s r H) as [A B]. rewrite A. f_equal. now apply IH. Qed.

(** What [reset] restores does not depend on the calls before. *)
Hypothesis Hcall : forall o s r, o_reset op (fst (o_call op o s r)) = o_reset op o.
Hypothesis Hreset : forall o, o_reset op (o_reset op o) = o_reset op o.
Lemma base_call_same b s r : b_kind b <> KPID -> fst (base_call b s r) = b.
Proof. intros H. unfold base_call. destruct (b_kind b); try reflexivity. now destruct H. Qed.
Lemma reset_int b z : has_integrator b = true -> base_reset (base_set_int b z) = base_reset b.
Proof. intros H. unfold base_reset. cbn. unfold has_integrator in *. cbn. rewrite H. reflexivity. Qed.
Lemma base_reset_twice b : base_reset (base_reset b) = base_reset b.
Proof. unfold base_reset at 2 3. destruct (has_integrator b) eqn:H; [now rewrite reset_int, ?H by assumption; unfold base_reset; rewrite H|unfold base_reset; rewrite H; reflexivity]. Qed.
Lemma clip_reset_same c1 c2 : cs_task c1 = cs_task c2 -> cs_clip c1 = cs_clip c2 -> clip_reset c1 = clip_reset c2.
Proof. unfold clip_reset. intros -> ->. reflexivity. Qed.
Lemma clip_call_keeps c r : cs_task (fst (clip_call c r)) = cs_task c /\ cs_clip (fst (clip_call c r)) = cs_clip c.
Proof. unfold clip_call. destruct (clipped _ _); [|split; reflexivity]. destruct (np_bin _ _ _); split; reflexivity. Qed.
Lemma cc_reset_after c s r : b_kind (cc_base c) <> KPID ->
  s_cc (cc_reset (fst (current_control c s r))) = s_cc (cc_reset c) /\ b_kind (cc_base (fst (current_control c s r))) = b_kind (cc_base c).
Proof.
  intros Hk. unfold current_control. pose proof (base_call_same (cc_base c) s r Hk) as Eb. destruct (base_call (cc_base c) s r) as [b u0]. cbn in Eb. subst b.
  destruct (bind u0 _) as [u|]; [|split; reflexivity]. pose proof (clip_call_keeps (cc_clip c) u) as [K1 K2]. destruct (clip_call (cc_clip c) u) as [cl v0]. cbn [fst] in K1, K2. pose proof (clip_reset_same _ _ K1 K2) as K3.
  destruct v0 as [v|]; [|split; [unfold s_cc, cc_reset; cbn; rewrite K3; reflexivity|reflexivity]]. destruct (if cc_req c then _ else _); [|split; [unfold s_cc, cc_reset; cbn; rewrite K3; reflexivity|reflexivity]].
  destruct (has_integrator (cc_base c)) eqn:Hi; [|split; [unfold s_cc, cc_reset; cbn; rewrite K3; reflexivity|reflexivity]].
  destruct (bind (windup_call _ _ _ _) _); (split; [unfold s_cc, cc_reset; cbn; rewrite K3, ?reset_int by exact Hi; reflexivity|reflexivity]).
Qed.
Lemma cctl_reset_after c s r : b_kind (cc_base c) <> KPID ->
  s_cc (cc_reset (fst (cc_control c s r))) = s_cc (cc_reset c) /\ b_kind (cc_base (fst (cc_control c s r))) = b_kind (cc_base c).
Proof. intros Hk. unfold cc_control. destruct (cc_reset_after c s r Hk) as [A B]. destruct (current_control c s r) as [c1 [u|]]; cbn in *; split; assumption. Qed.
Lemma tc_reset_after c s r : b_kind (cc_base (tc_cc c)) <> KPID ->
  s_tc (tc_reset op (fst (tc_control op c s r))) = s_tc (tc_reset op c) /\ b_kind (cc_base (tc_cc (fst (tc_control op c s r)))) = b_kind (cc_base (tc_cc c)).
Proof.
  intros Hk. unfold tc_control. pose proof (Hcall (tc_ops c) s r) as Ho. destruct (o_call op (tc_ops c) s r) as [o i0]. cbn [fst] in Ho.
  destruct i0 as [i|]; [|split; [unfold s_tc, tc_reset; cbn; rewrite Ho; reflexivity|reflexivity]].
  pose proof (clip_call_keeps (tc_clip c) i) as [K1 K2]. destruct (clip_call (tc_clip c) i) as [cl j0]. cbn [fst] in K1, K2. pose proof (clip_reset_same _ _ K1 K2) as K3.
  destruct j0 as [j|]; [|split; [unfold s_tc, tc_reset; cbn; rewrite Ho, K3; reflexivity|reflexivity]].
  destruct (cc_reset_after (tc_cc c) s j Hk) as [A B]. destruct (current_control (tc_cc c) s j) as [cc u]. cbn [fst] in A, B. split; [|exact B].
  unfold s_tc, tc_reset; cbn. rewrite Ho, K3, A. reflexivity.
Qed.
Lemma sc_reset_after c s r : b_kind (sc_base c) <> KPID -> b_kind (cc_base (tc_cc (sc_tc c))) <> KPID ->
  let c' := fst (sc_control op c s r) in
  s_sc (sc_reset op c') = s_sc (sc_reset op c) /\ b_kind (sc_base c') = b_kind (sc_base c) /\ b_kind (cc_base (tc_cc (sc_tc c'))) = b_kind (cc_base (tc_cc (sc_tc c))).
Proof.
  intros Hb Hk. cbv zeta. unfold sc_control, speed_control. pose proof (base_call_same (sc_base c) s r Hb) as Eb. destruct (base_call (sc_base c) s r) as [b t0]. cbn [fst] in Eb. subst b.
  destruct t0 as [t|]; [|repeat split; reflexivity]. pose proof (clip_call_keeps (sc_clip c) t) as [K1 K2]. destruct (clip_call (sc_clip c) t) as [cl v0]. cbn [fst] in K1, K2.
  assert (K3 : s_cl cl = s_cl (sc_clip c)) by (unfold s_cl; rewrite K1, K2; reflexivity).
  assert (T : forall b v, base_reset b = base_reset (sc_base c) -> b_kind b = b_kind (sc_base c) ->
    let c' := fst (let (tc, u) := tc_control op (sc_tc (sc_upd c b (sc_tc c) v cl)) s v in (sc_upd (sc_upd c b (sc_tc c) v cl) (sc_base (sc_upd c b (sc_tc c) v cl)) tc (sc_ref (sc_upd c b (sc_tc c) v cl)) (sc_clip (sc_upd c b (sc_tc c) v cl)), u)) in
    s_sc (sc_reset op c') = s_sc (sc_reset op c) /\ b_kind (sc_base c') = b_kind (sc_base c) /\ b_kind (cc_base (tc_cc (sc_tc c'))) = b_kind (cc_base (tc_cc (sc_tc c)))).
  { intros b v Er Ek. cbn [sc_upd sc_tc sc_base sc_clip sc_ref]. destruct (tc_reset_after (sc_tc c) s v Hk) as [A B]. destruct (tc_control op (sc_tc c) s v) as [tc u]. cbn [fst] in A, B. cbn. split; [|split; assumption].
    unfold s_sc, sc_reset; cbn. rewrite Er, A, K3. reflexivity. }
  destruct v0 as [v|]; [|cbn; repeat split; unfold s_sc, sc_reset; cbn; rewrite K3; reflexivity].
  destruct (has_integrator (sc_base c)) eqn:Hi; [|apply T; reflexivity].
  destruct (bind (windup_call _ _ _ _) _) as [z|]; [|cbn; repeat split; unfold s_sc, sc_reset; cbn; rewrite K3; reflexivity].
  apply T; [apply reset_int; exact Hi|reflexivity].
Qed.
Definition no_pid (k : inner O) : Prop := forall b, In b (bases k) -> b_kind b <> KPID.
Lemma reset_kind b : b_kind (base_reset b) = b_kind b.
Proof. unfold base_reset. destruct (has_integrator b); reflexivity. Qed.
Lemma step_restores k x : no_pid k -> strip (inner_reset op (cstep k x)) = strip (inner_reset op k) /\ no_pid (cstep k x).
Proof.
  intros Hn. destruct x as [s r|]; cbn [cstep].
  - destruct k as [c|c|c]; cbn [inner_control].
    + destruct (cctl_reset_after c s r (Hn _ (or_introl eq_refl))) as [A B]. destruct (cc_control c s r) as [c' u]. cbn in *. split; [congruence|]. intros b [<-|[]]. cbn. rewrite B. apply Hn. now left.
    + destruct (tc_reset_after c s r (Hn _ (or_introl eq_refl))) as [A B]. destruct (tc_control op c s r) as [c' u]. cbn in *. split; [congruence|]. intros b [<-|[]]. cbn. rewrite B. apply Hn. now left.
    + destruct (sc_reset_after c s r (Hn _ (or_introl eq_refl)) (Hn _ (or_intror (or_introl eq_refl)))) as (A & B & C). destruct (sc_control op c s r) as [c' u]. cbn in *. split; [congruence|].
      intros b [<-|[<-|[]]]; cbn; [rewrite B; apply Hn; now left|rewrite C; apply Hn; right; now left].
  - split.
    + destruct k as [c|c|c]; cbn.
      * unfold s_cc, cc_reset; cbn. rewrite base_reset_twice. reflexivity.
      * unfold s_tc, s_cc, tc_reset, cc_reset; cbn. rewrite base_reset_twice, Hreset. reflexivity.
      * unfold s_sc, s_tc, s_cc, sc_reset, tc_reset, cc_reset; cbn. rewrite !base_reset_twice, Hreset. reflexivity.
    + intros b Hb. destruct k as [c|c|c]; cbn in Hb; [destruct Hb as [<-|[]]|destruct Hb as [<-|[]]|destruct Hb as [<-|[<-|[]]]]; rewrite reset_kind; apply Hn; cbn; tauto.
Qed.
Lemma after_restores h : forall k, no_pid k -> strip (inner_reset op (after h k)) = strip (inner_reset op k).
Proof. induction h as [|x h IH]; intros k Hn; [reflexivity|]. cbn [after fold_left]. destruct (step_restores k x Hn) as [A B]. fold (after h (cstep k x)). rewrite IH by exact B. exact A. Qed.
End History.

(** ** C122 Reset of a cascaded controller forgets the history *)
(** An episode after [reset] gives the same results whatever was controlled before, if no stage is a PID
    controller (see pid_reset_forgets_history_refuted) and the operation point selection restores its own state. *)
Theorem cascade_reset_forgets_history :
  forall O (op : ops O) k h ep,
  (forall o s r, o_reset op (fst (o_call op o s r)) = o_reset op o) -> (forall o, o_reset op (o_reset op o) = o_reset op o) ->
  (forall b, In b (bases k) -> b_kind b <> KPID) ->
  outputs op (inner_reset op (after op h k)) ep = outputs op (inner_reset op k) ep.
Proof. intros O op k h ep H1 H2 H3. apply strip_outputs. now apply after_restores. Qed.
Print Assumptions cascade_reset_forgets_history.
(** A speed controller of a permanently excited DC motor as [make] builds it: a call succeeds, and its integrator moves. *)
Definition dc_state : list R := [100; 1; 2; 3; 60].
Definition is_ok {A} (r : res A) : bool := match r with Ok _ => true | Err _ => false end.
Example cascade_reset_example :
  is_ok (do ad <- gem_make the_ops unit_ops dc_env "Cont-SC-PermExDc-v0" true (1 / 10) "PI" "PI" 4; snd (inner_control the_ops (inner_reset the_ops (ad_in ad)) dc_state [100])) = true /\
  (forall ad, gem_make the_ops unit_ops dc_env "Cont-SC-PermExDc-v0" true (1 / 10) "PI" "PI" 4 = Ok ad -> forall b, In b (bases (ad_in ad)) -> b_kind b <> KPID) /\
  (forall o s r, o_reset the_ops (fst (o_call the_ops o s r)) = o_reset the_ops o) /\ (forall o, o_reset the_ops (o_reset the_ops o) = o_reset the_ops o).
Proof.
  split; [lazy; reflexivity|]. split; [|split; intros; reflexivity].
  intros ad H b Hb.
  assert (K : match gem_make the_ops unit_ops dc_env "Cont-SC-PermExDc-v0" true (1 / 10) "PI" "PI" 4 with Ok x => map b_kind (bases (ad_in x)) | Err _ => [] end = [KPI; KPI]) by (lazy; reflexivity).
  rewrite H in K. apply (in_map b_kind) in Hb. rewrite K in Hb. cbn in Hb. destruct Hb as [<-|[<-|[]]]; discriminate.
Qed.

(** The modulation controller keeps a flag at its reset; no result depends on it. *)
Fixpoint flux_outputs (f : fpar) (m : fmod) (ss : list (list R)) : list (res R) :=
  match ss with [] => [] | s :: l => snd (modulation f m s) :: flux_outputs f (fst (modulation f m s)) l end.
Theorem modulation_reset_forgets_history :
  forall f m1 m2 ss, flux_outputs f (foc_reset f m1) ss = flux_outputs f (foc_reset f m2) ss.
Proof.
  intros f m1 m2 ss. remember (foc_reset f m1) as n1 eqn:E1. remember (foc_reset f m2) as n2 eqn:E2.
  assert (H : n1 = n2 \/ (fm_int n1 = Some (fp_reset f) /\ fm_int n2 = Some (fp_reset f))) by (right; subst; split; reflexivity). clear E1 E2.
  revert n1 n2 H. induction ss as [|s ss IH]; intros n1 n2 H; [reflexivity|]. destruct H as [->|[H1 H2]]; [reflexivity|]. cbn [flux_outputs].
  assert (K : snd (modulation f n1 s) = snd (modulation f n2 s) /\ (fst (modulation f n1 s) = fst (modulation f n2 s) \/ (fm_int (fst (modulation f n1 s)) = Some (fp_reset f) /\ fm_int (fst (modulation f n2 s)) = Some (fp_reset f)))).
  { unfold modulation. destruct (do usd <- _; _) as [[[usd usq] w]|x]; [|cbn; tauto]. rewrite H1, H2. replace (if rlt (11 / 10 * fp_amax f) (2 * sqrt (usd * usd + usq * usq) / fp_udc f) then Some (fp_reset f) else Some (fp_reset f)) with (Some (fp_reset f)) by (destruct (rlt _ _); reflexivity).
    match goal with |- context [if ?c then _ else _] => destruct c end; [|split; [reflexivity|left; reflexivity]]. cbn [fst snd]. split; [reflexivity|]. left. destruct (fm_limited n1), (fm_limited n2); reflexivity. }
  destruct K as [-> K]. f_equal. now apply IH.
Qed.
Print Assumptions modulation_reset_forgets_history.

(** ** C123 Demands inside a cascade lie within the limits *)
Lemma indices_nth e names : forall idx k name, indices e names = Ok idx -> nth_error names k = Some name -> str_index name (ce_names e) = Ok (nth k idx O).
Proof.
  induction names as [|n names IH]; intros idx k name H Hk; [destruct k; discriminate|]. cbn [indices] in H. apply bind_ok in H. destruct H as (i & Ei & H). apply bind_ok in H. destruct H as (is & Es & H). injection H as <-.
  destruct k as [|k]; cbn in Hk |- *; [injection Hk as <-; exact Ei|exact (IH _ _ _ Es Hk)].
Qed.
Lemma clips_one x l h v : l <= h -> np_clips x [l] [h] = Ok v -> Forall (fun y => l <= y <= h) v.
Proof.
  intros Hlh H. unfold np_clips in H. apply bind_ok in H. destruct H as (y & Ey & H).
  assert (Y : Forall (fun a => l <= a) y).
  { unfold np_bin in Ey. destruct (Nat.eqb (length x) (length [l])) eqn:E; [|destruct x as [|x0 [|x1 x]]; [|discriminate E|]]; injection Ey as <-.
    - apply Nat.eqb_eq in E. destruct x as [|x0 [|]]; try discriminate E. constructor; [apply Rmax_r|constructor].
    - constructor.
    - do 2 (constructor; [apply Rmax_r|]). apply Forall_forall. intros a Ha. apply in_map_iff in Ha. destruct Ha as (b & <- & _). apply Rmax_r. }
  clear Ey. unfold np_bin in H. destruct (Nat.eqb (length y) (length [h])) eqn:E; [|destruct y as [|y0 [|y1 y]]; [|discriminate E|]]; injection H as <-.
  - apply Nat.eqb_eq in E. destruct y as [|y0 [|]]; try discriminate E. inversion Y; subst. constructor; [|constructor]. cbn. split; [apply Rmin_glb; lra|apply Rmin_r].
  - constructor.
  - inversion Y as [|? ? Y0 Y1']; subst. inversion Y1' as [|? ? Y1 Y2]; subst. do 2 (constructor; [split; [apply Rmin_glb; lra|apply Rmin_r]|]). apply Forall_forall. intros a Ha. apply in_map_iff in Ha. destruct Ha as (b & <- & Hb). rewrite Forall_forall in Y2. specialize (Y2 b Hb). cbn beta in Y2. split; [apply Rmin_glb; lra|apply Rmin_r].
Qed.

Section Limits.
Context {O : Type} (op : ops O).
(** The part of a controller that histories do not change *)
Definition clips (k : inner O) : list clip :=
  match k with ICur c => [cs_clip (cc_clip c)] | ITor c => [cs_clip (tc_clip c)] | ISpd c => [cs_clip (sc_clip c); cs_clip (tc_clip (sc_tc c))] end.
Lemma current_keeps c s r : cs_clip (cc_clip (fst (current_control c s r))) = cs_clip (cc_clip c).
Proof.
  unfold current_control. destruct (base_call _ _ _) as [b u0]. destruct (bind u0 _) as [u|]; [|reflexivity]. pose proof (clip_call_keeps (cc_clip c) u) as [_ K]. destruct (clip_call _ _) as [cl v0]. cbn in K.
  destruct v0 as [v|]; [|exact K]. destruct (if cc_req c then _ else _); [|exact K]. destruct (has_integrator b); [|exact K]. destruct (bind (windup_call _ _ _ _) _); exact K.
Qed.
Lemma torque_keeps c s r : cs_clip (tc_clip (fst (tc_control op c s r))) = cs_clip (tc_clip c).
Proof.
  unfold tc_control. destruct (o_call _ _ _ _) as [o i0]. destruct i0 as [i|]; [|reflexivity]. pose proof (clip_call_keeps (tc_clip c) i) as [_ K]. destruct (clip_call _ _) as [cl j0]. cbn in K.
  destruct j0 as [j|]; [|exact K]. destruct (current_control _ _ _). exact K.
Qed.
Lemma speed_keeps (c : sctl O) s r : cs_clip (sc_clip (fst (speed_control c s r))) = cs_clip (sc_clip c) /\ sc_tc (fst (speed_control c s r)) = sc_tc c.
Proof.
  unfold speed_control. destruct (base_call _ _ _) as [b t0]. destruct t0 as [t|]; [|split; reflexivity]. pose proof (clip_call_keeps (sc_clip c) t) as [_ K]. destruct (clip_call _ _) as [cl v0]. cbn in K.
  destruct v0 as [v|]; [|split; [exact K|reflexivity]]. destruct (has_integrator b); [|split; [exact K|reflexivity]]. destruct (bind (windup_call _ _ _ _) _); (split; [exact K|reflexivity]).
Qed.
Lemma step_clips k x : clips (cstep op k x) = clips k.
Proof.
  destruct x as [s r|]; [|destruct k; reflexivity]. destruct k as [c|c|c]; cbn [cstep inner_control].
  - unfold cc_control. pose proof (current_keeps c s r) as K. destruct (current_control c s r) as [c1 u]. cbn in K. destruct u; cbn; rewrite K; reflexivity.
  - pose proof (torque_keeps c s r) as K. destruct (tc_control op c s r). cbn in *. rewrite K. reflexivity.
  - unfold sc_control. pose proof (speed_keeps c s r) as [K1 K2]. destruct (speed_control c s r) as [c1 t0]. cbn in K1, K2. destruct t0 as [t|]; [|cbn; rewrite K1, K2; reflexivity].
    pose proof (torque_keeps (sc_tc c1) s t) as K3. destruct (tc_control op (sc_tc c1) s t). cbn in *. rewrite K1, K3, K2. reflexivity.
Qed.
Lemma after_clips h : forall k, clips (after op h k) = clips k.
Proof. induction h as [|x h IH]; intros k; [reflexivity|]. cbn [after fold_left]. fold (after op h (cstep op k x)). rewrite IH. apply step_clips. Qed.
End Limits.

(** The torque controller [c1] was made and tuned for the motor [id] and then used, on its own or inside a speed controller. *)
Definition torque_stage {O} (op : ops O) (e : cenv) (id : string) (margin : R) (c1 : tctl O) : Prop :=
  exists cc o c0 a c h, tc_new cc o id = Ok c0 /\ tc_tune op c0 e id margin a = Ok c /\
  (after op h (ITor c) = ITor c1 \/ exists sc sc1, sc_tc sc = c /\ after op h (ISpd sc) = ISpd sc1 /\ sc_tc sc1 = c1).
Lemma torque_stage_clip {O} (op : ops O) e id margin c1 m : torque_stage op e id margin c1 -> motor_type id = Ok m ->
  exists cl, clip_tune (if str_in m dc_motors then abs_new TC else if String.eqb m "EESM" then comb_new TC else sq_new TC) e id margin = Ok cl /\ cs_clip (tc_clip c1) = cs_clip cl.
Proof.
  intros (cc & o & c0 & a & c & h & En & Et & Hh) Hm. unfold tc_new in En. rewrite Hm in En. cbn [bind] in En. injection En as <-. unfold tc_tune in Et. apply bind_ok in Et. destruct Et as (cc' & _ & Et). apply bind_ok in Et. destruct Et as (cl & Ecl & Et). cbn [tc_clip] in Ecl.
  repeat (apply bind_ok in Et; destruct Et as (? & ? & Et)). injection Et as <-. exists cl. split; [exact Ecl|].
  destruct Hh as [Hh|(sc & sc1 & Es & Hh & E1)].
  - match type of Hh with after _ _ ?k = _ => pose proof (after_clips op h k) as K end. rewrite Hh in K. cbn [clips tc_clip] in K. congruence.
  - pose proof (after_clips op h (ISpd sc)) as K. rewrite Hh in K. cbn [clips] in K. rewrite Es in K. cbn [tc_clip] in K. congruence.
Qed.
Lemma tc_control_inv {O} (op : ops O) c s r c' u : tc_control op c s r = (c', Ok u) ->
  exists o i cl j, o_call op (tc_ops c) s r = (o, Ok i) /\ clip_call (tc_clip c) i = (cl, Ok j) /\ tc_ref c' = j /\ current_control (tc_cc c) s j = (tc_cc c', Ok u).
Proof.
  unfold tc_control. destruct (o_call op (tc_ops c) s r) as [o [i|]] eqn:Eo; [|discriminate]. destruct (clip_call (tc_clip c) i) as [cl [j|]] eqn:Ec; [|discriminate]. destruct (current_control (tc_cc c) s j) as [cc u0] eqn:Ej.
  intros H. injection H as <- ->. exists o, i, cl, j. repeat (split; [assumption || reflexivity|]). cbn. exact Ej.
Qed.

(** DC motors: each current demanded from the current controller lies in the range of the observation, reduced by the margin. *)
Theorem dc_current_demand_within_limits :
  forall O (op : ops O) e id m margin names c1 s r c' u,
  motor_type id = Ok m -> In m dc_motors -> dict_item m currents = Ok names -> env_proper e -> margin <= 1 ->
  torque_stage op e id margin c1 -> (forall o i, snd (o_call op o s r) = Ok i -> length i = length names) ->
  tc_control op c1 s r = (c', Ok u) ->
  exists j, current_control (tc_cc c1) s j = (tc_cc c', Ok u) /\ tc_ref c' = j /\ length j = length names /\
  forall k name, nth_error names k = Some name -> exists p, str_index name (ce_names e) = Ok p /\ 0 < comp p (ce_limits e) /\
    (1 - margin) * comp p (ce_low e) * comp p (ce_limits e) <= comp k j <= (1 - margin) * comp p (ce_high e) * comp p (ce_limits e).
Proof.
  intros O op e id m margin names c1 s r c' u Hm Hdc Hn He Hmg Hst Hlen H. destruct (torque_stage_clip op e id margin c1 m Hst Hm) as (cl & Ecl & Ek).
  assert (Hd : str_in m dc_motors = true) by (cbn in Hdc; repeat (destruct Hdc as [<-|Hdc]; [reflexivity|]); destruct Hdc). rewrite Hd in Ecl.
  destruct (tc_control_inv op _ _ _ _ _ H) as (o & i & cl' & j & E1 & E2 & E3 & E4). exists j. split; [exact E4|]. split; [exact E3|].
  assert (Li : length i = length names) by (apply (Hlen (tc_ops c1)); rewrite E1; reflexivity).
  pose proof Ecl as Ecl'. unfold clip_tune in Ecl'. rewrite Hm in Ecl'. cbn [bind abs_new clip_names cs_task] in Ecl'. rewrite Hn in Ecl'. cbn [bind] in Ecl'. apply bind_ok in Ecl'. destruct Ecl' as (idx & Ei & Ecl'). cbn [cs_clip] in Ecl'. apply bind_ok in Ecl'. destruct Ecl' as (rg & Er & _).
  destruct (absolute_clipping_range TC e id m margin cl names idx Ecl Hm Hn Ei) as (lo & hi & K1 & _ & L1 & L2 & K2). rewrite K1 in Ek.
  pose proof (indices_length _ _ _ Ei) as Li'. destruct (ranges_inv _ _ _ _ _ Li' Er) as (ll & lo' & hi' & Sl & _ & _ & _). pose proof (select_bound _ _ _ Sl) as Sb. rewrite Forall_forall in Sb.
  assert (P : forall k, (k < length names)%nat -> let p := nth k idx 0%nat in 0 < comp p (ce_limits e) /\ comp p (ce_low e) <= comp p (ce_high e)).
  { intros k Hk p. destruct (env_proper_at e p He) as (A & B & _); [apply Sb; apply nth_In; lia|]. split; lra. }
  destruct (absolute_clipping (length names) lo hi i (tc_clip c1) cl' j Ek L1 L2 Li) as [Lj Kj].
  { intros k Hk. destruct (K2 k Hk) as [-> ->]. destruct (P k Hk) as [A B]. apply Rmult_le_compat_r; [lra|]. apply Rmult_le_compat_r; lra. }
  { exact E2. }
  split; [exact Lj|]. intros k name Hk. assert (Hkl : (k < length names)%nat) by (apply nth_error_Some; congruence). exists (nth k idx 0%nat). split; [exact (indices_nth _ _ _ _ _ Ei Hk)|]. split; [apply (P k Hkl)|].
  destruct (Kj k Hkl) as [B _]. destruct (K2 k Hkl) as [C1 C2]. rewrite C1, C2 in B. split; [eapply Rle_trans; [|exact (proj1 B)]|eapply Rle_trans; [exact (proj2 B)|]]; right; ring.
Qed.
Print Assumptions dc_current_demand_within_limits.

(** EESM: the stator currents lie in the ellipse of the reduced limits, the excitation current in its range. *)
Theorem eesm_current_demand_within_limits :
  forall O (op : ops O) e id margin c1 s r c' u,
  motor_type id = Ok "EESM" -> env_proper e -> 0 <= margin < 1 ->
  torque_stage op e id margin c1 -> (forall o i, snd (o_call op o s r) = Ok i -> length i = 3%nat) ->
  tc_control op c1 s r = (c', Ok u) ->
  exists j d q x, current_control (tc_cc c1) s j = (tc_cc c', Ok u) /\ tc_ref c' = j /\ length j = 3%nat /\
  str_index "i_sd" (ce_names e) = Ok d /\ str_index "i_sq" (ce_names e) = Ok q /\ str_index "i_e" (ce_names e) = Ok x /\
  rel_length [(1 - margin) * comp d (ce_limits e); (1 - margin) * comp q (ce_limits e)] (firstn 2 j) <= 1 /\
  (1 - margin) * comp x (ce_low e) * comp x (ce_limits e) <= comp 2 j <= (1 - margin) * comp x (ce_high e) * comp x (ce_limits e).
Proof.
  intros O op e id margin c1 s r c' u Hm He Hmg Hst Hlen H. destruct (torque_stage_clip op e id margin c1 "EESM" Hst Hm) as (cl & Ecl & Ek). cbn in Ecl.
  destruct (tc_control_inv op _ _ _ _ _ H) as (o & i & cl' & j & E1 & E2 & E3 & E4). assert (Li : length i = 3%nat) by (apply (Hlen (tc_ops c1)); rewrite E1; reflexivity).
  unfold clip_tune in Ecl. rewrite Hm in Ecl. cbn [bind comb_new clip_names cs_task] in Ecl. change (dict_item "EESM" currents) with (Ok ["i_sd"; "i_sq"; "i_e"] : res (list string)) in Ecl. cbn [bind] in Ecl. apply bind_ok in Ecl. destruct Ecl as (idx & Ei & Ecl). cbn [cs_clip] in Ecl.
  apply bind_ok in Ecl. destruct Ecl as (rg & Er & Ecl). apply bind_ok in Ecl. destruct Ecl as (l & El & Ecl). apply bind_ok in Ecl. destruct Ecl as (lim & Elim & Ecl). apply bind_ok in Ecl. destruct Ecl as (lo & Elo & Ecl). apply bind_ok in Ecl. destruct Ecl as (hi & Ehi & Ecl). injection Ecl as <-. cbn [cs_clip] in Ek.
  pose proof (indices_length _ _ _ Ei) as Li'. destruct (ranges_inv _ _ _ _ _ Li' Er) as (ll & lo' & hi' & Sl & Slo & Shi & R1 & R2 & R3). pose proof (select_bound _ _ _ Sl) as Sb. rewrite Forall_forall in Sb.
  pose proof (indices_nth _ _ _ 0%nat "i_sd" Ei eq_refl) as P0. pose proof (indices_nth _ _ _ 1%nat "i_sq" Ei eq_refl) as P1. pose proof (indices_nth _ _ _ 2%nat "i_e" Ei eq_refl) as P2.
  rewrite El in Sl. injection Sl as <-. pose proof (select_length _ _ _ El) as Ll. cbn in Li'. rewrite Li' in Ll.
  exists j, (nth 0 idx 0%nat), (nth 1 idx 0%nat), (nth 2 idx 0%nat). split; [exact E4|]. split; [exact E3|].
  destruct (clip_call_inv _ _ _ _ E2) as (C1 & _). rewrite Ek in C1. cbn [clipped] in C1. destruct i as [|i0 [|i1 [|i2 [|]]]]; try discriminate Li. cbn [select nth_error bind] in C1. apply bind_ok in C1. destruct C1 as (sq & Esq & C1). apply bind_ok in C1. destruct C1 as (a & Ea & C1). injection C1 as <-.
  destruct l as [|l0 [|l1 [|l2 [|]]]]; try discriminate Ll. cbn [map select nth_error bind] in Elim. injection Elim as <-.
  destruct (squared_clipping_length [l0 * (1 - margin); l1 * (1 - margin)] margin [i0; i1] Hmg eq_refl) as (f & v & S1 & S2 & S3 & S4). rewrite S1 in Esq. injection Esq as ->. cbn [map] in S3. subst sq.
  assert (Llo : length lo = 1%nat) by (apply select_length in Elo; exact Elo). assert (Lhi : length hi = 1%nat) by (apply select_length in Ehi; exact Ehi).
  pose proof (select_comp _ _ _ 0%nat Elo ltac:(cbn; lia)) as Clo. pose proof (select_comp _ _ _ 0%nat Ehi ltac:(cbn; lia)) as Chi. cbn [nth] in Clo, Chi. destruct lo as [|lo0 [|]]; try discriminate Llo. destruct hi as [|hi0 [|]]; try discriminate Lhi. unfold comp at 1 in Clo. unfold comp at 1 in Chi. cbn [nth] in Clo, Chi.
  destruct (R3 2%nat ltac:(cbn; lia)) as [Q1 Q2]. rewrite Q1 in Clo. rewrite Q2 in Chi. rewrite (select_comp _ _ _ 2%nat Slo) in Clo by lia. rewrite (select_comp _ _ _ 2%nat Shi) in Chi by lia. pose proof (select_comp _ _ _ 2%nat El ltac:(lia)) as Cl2. pose proof (select_comp _ _ _ 0%nat El ltac:(lia)) as Cl0. pose proof (select_comp _ _ _ 1%nat El ltac:(lia)) as Cl1. rewrite Cl2 in Clo, Chi. unfold comp at 1 in Cl0. unfold comp at 1 in Cl1. cbn [nth] in Cl0, Cl1.
  destruct (env_proper_at e (nth 2 idx 0%nat) He) as (A1 & A2 & _); [apply Sb, nth_In; lia|].
  assert (Hlh : lo0 <= hi0). { rewrite Clo, Chi. apply Rmult_le_compat_r; [|lra]. apply Rmult_le_pos; lra. }
  pose proof (clips_one _ _ _ _ Hlh Ea) as Fa. destruct (np_clips_inv _ _ _ _ 1%nat Ea eq_refl eq_refl eq_refl) as [La _]. destruct a as [|a0 [|]]; try discriminate La. pose proof (Forall_inv Fa) as F0.
  split; [reflexivity|]. split; [exact P0|]. split; [exact P1|]. split; [exact P2|]. split.
  - cbn [app firstn]. rewrite <- Cl0, <- Cl1. rewrite (Rmult_comm (1 - margin) l0), (Rmult_comm (1 - margin) l1), S4. set (z := rel_length _ _). destruct (rltP z (1 - margin)) as [Hz|Hz]; [lra|]. apply (Rmult_le_reg_r z); [lra|]. unfold Rdiv. rewrite Rmult_assoc, Rinv_l by lra. lra.
  - unfold comp at 3. cbn [app nth]. cbv beta in F0. rewrite Clo, Chi in F0. split; [eapply Rle_trans; [|exact (proj1 F0)]|eapply Rle_trans; [exact (proj2 F0)|]]; right; ring.
Qed.
Print Assumptions eesm_current_demand_within_limits.

(** The torque demanded by a tuned and used speed controller lies in the range of the torque observation. *)
Theorem torque_demand_within_limits :
  forall O (op : ops O) tc name c0 e id margin a c h c1 s r c' u,
  sc_new tc name = Ok c0 -> sc_tune op c0 e id margin a = Ok c -> env_proper e ->
  after op h (ISpd c) = ISpd c1 -> sc_control op c1 s r = (c', Ok u) ->
  exists t p, tc_control op (sc_tc c1) s t = (sc_tc c', Ok u) /\ sc_ref c' = t /\ str_index "torque" (ce_names e) = Ok p /\
  Forall (fun x => comp p (ce_low e) * comp p (ce_limits e) <= x <= comp p (ce_high e) * comp p (ce_limits e)) t.
Proof.
  intros O op tc name c0 e id margin a c h c1 s r c' u En Et He Hh H. unfold sc_new in En. apply bind_ok in En. destruct En as (k & _ & En). injection En as <-.
  unfold sc_tune in Et. apply bind_ok in Et. destruct Et as (tc' & _ & Et). apply bind_ok in Et. destruct Et as (w & _ & Et). apply bind_ok in Et. destruct Et as (cl & Ecl & Et). cbn [sc_clip] in Ecl. repeat (apply bind_ok in Et; destruct Et as (? & ? & Et)). injection Et as <-.
  match type of Hh with after _ _ ?k = _ => pose proof (after_clips op h k) as K end. rewrite Hh in K. cbn [clips sc_clip] in K. injection K as Kc _.
  unfold clip_tune in Ecl. apply bind_ok in Ecl. destruct Ecl as (m & _ & Ecl). cbn [abs_new clip_names cs_task bind] in Ecl. apply bind_ok in Ecl. destruct Ecl as (idx & Ei & Ecl). cbn [cs_clip] in Ecl. apply bind_ok in Ecl. destruct Ecl as (rg & Er & Ecl). injection Ecl as <-. cbn [cs_clip] in Kc.
  pose proof (indices_length _ _ _ Ei) as Li. destruct (ranges_inv _ _ _ _ _ Li Er) as (l & lo & hi & Sl & Slo & Shi & R1 & R2 & R3). pose proof (indices_nth _ _ _ 0%nat "torque" Ei eq_refl) as P0.
  cbn in Li, R1, R2. destruct rg as [rl rh]. cbn [fst snd] in *. destruct rl as [|l0 [|]]; try discriminate R1. destruct rh as [|h0 [|]]; try discriminate R2. destruct (R3 0%nat ltac:(cbn; lia)) as [Q1 Q2]. unfold comp at 1 in Q1. unfold comp at 1 in Q2. cbn [nth] in Q1, Q2.
  rewrite (select_comp _ _ _ 0%nat Slo), (select_comp _ _ _ 0%nat Sl) in Q1 by lia. rewrite (select_comp _ _ _ 0%nat Shi), (select_comp _ _ _ 0%nat Sl) in Q2 by lia.
  pose proof (select_bound _ _ _ Sl) as Sb. rewrite Forall_forall in Sb. destruct (env_proper_at e (nth 0 idx 0%nat) He) as (A1 & A2 & _); [apply Sb, nth_In; lia|].
  assert (Hlh : l0 <= h0) by (rewrite Q1, Q2; apply Rmult_le_compat_r; lra).
  unfold sc_control in H. destruct (speed_control c1 s r) as [c2 t0] eqn:Es. destruct t0 as [t|]; [|discriminate]. destruct (tc_control op (sc_tc c2) s t) as [tc2 u0] eqn:Et. injection H as <- ->. exists t, (nth 0 idx 0%nat). cbn [sc_upd sc_tc sc_ref].
  unfold speed_control in Es. destruct (base_call (sc_base c1) s r) as [b t1]. destruct t1 as [t1|]; [|discriminate]. destruct (clip_call (sc_clip c1) t1) as [cl v0] eqn:Ec. destruct v0 as [v|]; [|discriminate].
  assert (Q : v = t /\ sc_ref c2 = v /\ sc_tc c2 = sc_tc c1). { destruct (has_integrator b); [destruct (bind (windup_call _ _ _ _) _); [|discriminate]|]; injection Es as <- <-; repeat split. } destruct Q as (-> & Q3 & Q4).
  rewrite <- Q4. split; [exact Et|]. split; [exact Q3|]. split; [exact P0|]. destruct (clip_call_inv _ _ _ _ Ec) as (C1 & _). rewrite Kc in C1. cbn [clipped] in C1. pose proof (clips_one _ _ _ _ Hlh C1) as F. eapply Forall_impl; [|exact F]. cbv beta. intros y Hy. rewrite Q1, Q2 in Hy. lra.
Qed.
Print Assumptions torque_demand_within_limits.

(** Controllers that meet the hypotheses and whose calls succeed: the DC motor above and an EESM. *)
Example demands_example :
  env_proper dc_env /\
  is_ok (do cc <- cc_new "Cont-SC-PermExDc-v0" "PI" true; do tc <- tc_new cc tt "Cont-SC-PermExDc-v0"; do c0 <- sc_new tc "PI";
         do c <- sc_tune the_ops c0 dc_env "Cont-SC-PermExDc-v0" (1 / 10) 4; snd (sc_control the_ops (sc_reset the_ops c) dc_state [100])) = true /\
  is_ok (do cc <- cc_new "Cont-TC-PermExDc-v0" "PI" true; do tc <- tc_new cc tt "Cont-TC-PermExDc-v0";
         do c <- tc_tune the_ops tc dc_env "Cont-TC-PermExDc-v0" (1 / 10) 4; snd (tc_control the_ops (tc_reset the_ops c) dc_state [100])) = true.
Proof. split; [exact dc_env_proper|]. split; lazy; reflexivity. Qed.
Definition three_ops : ops unit := {| o_call := fun o _ r => (o, Ok [0; comp 0 r; 5]); o_tune := fun o _ _ _ => Ok o; o_reset := fun o => o |}.
Example eesm_demand_example :
  env_proper eesm_ctl_env /\ motor_type "Cont-TC-EESM-v0" = Ok "EESM" /\ (forall s r o i, snd (o_call three_ops o s r) = Ok i -> length i = 3%nat) /\
  is_ok (do cc <- cc_new "Cont-TC-EESM-v0" "PI" true; do tc <- tc_new cc tt "Cont-TC-EESM-v0";
         do c <- tc_tune three_ops tc eesm_ctl_env "Cont-TC-EESM-v0" (1 / 10) 4; snd (tc_control three_ops (tc_reset three_ops c) (repeat 1 13) [100])) = true.
Proof.
  split; [split; [reflexivity|]; split; [reflexivity|]; intros k Hk; cbn in Hk; do 13 (destruct k as [|k]; [cbn; lra|]); lia|].
  split; [reflexivity|]. split; [intros s r o i H; injection H as <-; reflexivity|]. lazy; repeat (match goal with |- context [Rlt_dec ?a ?b] => destruct (Rlt_dec a b) end; lazy); reflexivity.
Qed.
