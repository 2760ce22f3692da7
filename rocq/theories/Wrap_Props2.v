(** Theorems about the cos/sin wrapper (cos_sin_processor.py) and the current sum wrapper
    (current_sum_processor.py). *)
From Verif Require Import PyBase PyBaseFacts PyDict PyDictFacts Conv_Model Transform_Model PhysSys_Model Wrap_Model Wrap_Spec Wrap_Proofs Wrap_Proofs2.
Local Open Scope string_scope. Local Open Scope list_scope. Local Open Scope R_scope.

(** ** A system for the examples: three states, every call shows the same vector *)
Definition still (names : list string) (lim o : list R) (sp : aspace) (dt : option nat) : machine unit :=
  {| m_info := {| i_names := names; i_pos := positions names; i_limits := lim; i_nominal := lim; i_low := map (fun _ => -1) lim; i_high := map (fun _ => 1) lim;
                  i_tau := 1 / 10; i_act := sp; i_dead := dt; i_motor := {| mi_three := true; mi_induction := true; mi_par := [("p", 2)] |} |};
     m_reset := fun s => (s, Ok o); m_sim := fun _ s => (s, Ok o) |}.
Lemma still_aligned names lim o sp dt : NoDup names -> length lim = length names -> aligned (length names) (m_info (still names lim o sp dt)).
Proof. intros H L. unfold aligned. cbn. rewrite !map_length. do 5 (split; [congruence|]). split; [exact H|]. intros k j. apply positions_spec, H. Qed.
Lemma still_sized names lim o sp dt : length o = length names -> sized (length names) (still names lim o sp dt).
Proof. intros H. split; cbn; [intros s s' o' E|intros a s s' o' E]; injection E as _ <-; exact H. Qed.
Ltac nodup := repeat constructor; cbn; intros Hc; repeat (destruct Hc as [Hc|Hc]; [discriminate|]); exact Hc.

(** ** C58 Cosine and sine of an angle *)
(** A step of the wrapped system is a step of the inner system; every state keeps its value
    under its name, the removed angle excepted; the two new names show the cosine and the
    sine of the angle; the observation has one entry per announced state. *)
Theorem cos_sin_step :
  forall S n c (m : machine S) M a s s' o', aligned n (m_info m) -> sized n m -> cs_machine c m = Ok M ->
  ~ In (fun_name "cos" (cs_angle c)) (i_names (m_info m)) -> ~ In (fun_name "sin" (cs_angle c)) (i_names (m_info m)) ->
  m_sim M a s = (s', Ok o') ->
  exists o e, m_sim m a s = (s', Ok o) /\ shown (i_names (m_info m)) o (cs_angle c) = Some e /\
    shown (i_names (m_info M)) o' (fun_name "cos" (cs_angle c)) = Some (cos (e * PI)) /\ shown (i_names (m_info M)) o' (fun_name "sin" (cs_angle c)) = Some (sin (e * PI)) /\
    (forall k, In k (i_names (m_info m)) -> cs_remove c = false \/ k <> cs_angle c -> shown (i_names (m_info M)) o' k = shown (i_names (m_info m)) o k) /\
    length o' = length (i_names (m_info M)).
Proof.
  intros S n c m M a s s' o' Ha Hs H Hc Hi Hm. destruct (cs_sim_inv n c m M a s s' o' Ha Hs H Hm) as (idx & o & e & Hx & Hnm & Em & Lo & Ee & ->).
  destruct (cs_machine_inv n c m M Ha H) as (idx' & _ & Hnm' & Einf & _ & _). destruct Ha as (L1 & L2 & L3 & L4 & L5 & Hn & Hp).
  assert (idx' = idx). { apply (proj1 (NoDup_nth_error _) Hn); [apply nth_error_Some; congruence|congruence]. } subst idx'.
  assert (Hnd : NoDup (i_names (m_info M))).
  { rewrite Einf. cbn [i_names]. apply nodup_snoc2; [apply kept_nodup, Hn| | |apply cos_sin_names]; intros Hin; apply kept_in in Hin; contradiction. }
  assert (El : length (kept c idx o) = length (kept c idx (i_names (m_info m)))) by (rewrite !kept_length by lia; rewrite Lo, L1; reflexivity).
  exists o, e. split; [exact Em|]. split; [apply shown_iff; [exact Hn|]; exists idx; auto|]. split; [|split; [|split]].
  - apply shown_iff; [exact Hnd|]. exists (length (kept c idx o)). rewrite Einf. cbn [i_names]. split; [rewrite El|]; apply nth_error_snoc2.
  - apply shown_iff; [exact Hnd|]. exists (Datatypes.S (length (kept c idx o))). rewrite Einf. cbn [i_names]. split; [rewrite El|]; apply nth_error_snoc2.
  - intros k Hk Hr. apply In_nth_error in Hk. destruct Hk as [i Ek]. assert (Hir : cs_remove c = false \/ i <> idx) by (destruct Hr as [Hr|Hr]; [now left|right; congruence]).
    assert (Hil : (i < n)%nat) by (rewrite <- L1; apply nth_error_Some; congruence). destruct (nth_error o i) as [v|] eqn:Eo; [|apply nth_error_None in Eo; lia].
    rewrite (shown_at _ o i k Hn Ek), Eo. apply shown_iff; [exact Hnd|]. exists (new_pos c idx i). rewrite Einf. cbn [i_names].
    pose proof (kept_nth c idx (i_names (m_info m)) i Hir) as K1. pose proof (kept_nth c idx o i Hir) as K2. rewrite Ek in K1. rewrite Eo in K2.
    split; (rewrite nth_error_app1; [assumption|apply nth_error_Some; congruence]).
  - rewrite Einf. cbn [i_names]. rewrite !app_length, El. reflexivity.
Qed.
Print Assumptions cos_sin_step.
Example cos_sin_step_example : let m := still ["omega"; "epsilon"; "i"] [1; PI; 1] [1/2; 1; 1/3] (SBox 3) None in
  aligned 3 (m_info m) /\ sized 3 m /\ exists M, cs_machine {| cs_angle := "epsilon"; cs_remove := true |} m = Ok M /\ m_sim M (ABox []) tt = (tt, Ok [1/2; 1/3; cos (1 * PI); sin (1 * PI)]).
Proof. split; [apply (still_aligned ["omega"; "epsilon"; "i"]); [nodup|reflexivity]|]. split; [apply (still_sized ["omega"; "epsilon"; "i"]); reflexivity|]. eexists. split; reflexivity. Qed.

(** The announced data fit together again, and the squares of the new entries sum to one. *)
Theorem cos_sin_announced :
  forall S n c (m : machine S) M, aligned n (m_info m) -> cs_machine c m = Ok M ->
  ~ In (fun_name "cos" (cs_angle c)) (i_names (m_info m)) -> ~ In (fun_name "sin" (cs_angle c)) (i_names (m_info m)) ->
  aligned (if cs_remove c then n + 1 else n + 2)%nat (m_info M) /\ (forall k, In k (i_names (m_info M)) <-> (In k (i_names (m_info m)) /\ (cs_remove c = false \/ k <> cs_angle c)) \/ k = fun_name "cos" (cs_angle c) \/ k = fun_name "sin" (cs_angle c)).
Proof.
  intros S n c m M Ha H Hc Hi. destruct (cs_machine_inv n c m M Ha H) as (idx & Hx & Hnm & Einf & _ & _). destruct Ha as (L1 & L2 & L3 & L4 & L5 & Hn & Hp).
  assert (Hnd : NoDup (kept c idx (i_names (m_info m)) ++ [fun_name "cos" (cs_angle c); fun_name "sin" (cs_angle c)])).
  { apply nodup_snoc2; [apply kept_nodup, Hn| | |apply cos_sin_names]; intros Hin; apply kept_in in Hin; contradiction. }
  rewrite Einf. split.
  - unfold aligned. cbn [i_names i_limits i_nominal i_low i_high i_pos]. rewrite !app_length, !kept_length, L1, L2, L3, L4, L5 by lia. cbn [length].
    do 5 (split; [destruct (cs_remove c); lia|]). split; [exact Hnd|]. intros k j. apply positions_spec, Hnd.
  - intros k. cbn [i_names]. rewrite in_app_iff. cbn [In]. split.
    + intros [Hk|[<-|[<-|[]]]]; [|auto|auto]. left. split; [eapply kept_in, Hk|]. unfold kept in Hk. destruct (cs_remove c); [|now left]. right. intros ->. apply In_nth_error in Hk. destruct Hk as [j Hj]. rewrite delete_at_nth in Hj.
      destruct (Nat.ltb_spec j idx) as [Hj1|Hj1].
      * assert (E : idx = j) by (apply (proj1 (NoDup_nth_error _) Hn); [apply nth_error_Some; congruence|congruence]). lia.
      * assert (E : idx = Datatypes.S j) by (apply (proj1 (NoDup_nth_error _) Hn); [apply nth_error_Some; congruence|congruence]). lia.
    + intros [[Hk Hr]|[->| ->]]; [|tauto|tauto]. left. apply In_nth_error in Hk. destruct Hk as [i Ek]. apply (nth_error_In _ (new_pos c idx i)). rewrite kept_nth; [exact Ek|]. destruct Hr as [Hr|Hr]; [now left|right; congruence].
Qed.
Print Assumptions cos_sin_announced.
Theorem cos_sin_unit : forall e, Rsqr (cos (e * PI)) + Rsqr (sin (e * PI)) = 1.
Proof. intros e. rewrite Rplus_comm. apply sin2_cos2. Qed.
Print Assumptions cos_sin_unit.

(** An unknown angle name is refused. *)
Theorem cos_sin_unknown_angle :
  forall S n c (m : machine S), aligned n (m_info m) -> ~ In (cs_angle c) (i_names (m_info m)) -> cs_machine c m = Err KeyError.
Proof.
  intros S n c m (L1 & L2 & L3 & L4 & L5 & Hn & Hp) Hi. unfold cs_machine, cs_info, dict_item. destruct (dict_get (cs_angle c) (i_pos (m_info m))) as [j|] eqn:E; [|reflexivity].
  exfalso. apply Hi. eapply nth_error_In. apply Hp. exact E.
Qed.
Print Assumptions cos_sin_unknown_angle.
Example cos_sin_unknown_angle_example : let m := still ["omega"; "i"] [1; 1] [1/2; 1/3] (SBox 3) None in aligned 2 (m_info m) /\ ~ In "epsilon" (i_names (m_info m)).
Proof. split; [apply (still_aligned ["omega"; "i"]); [nodup|reflexivity]|]. cbn. intros [E|[E|[]]]; discriminate. Qed.

(** A reset keeps the same contract if the angle stays ... *)
Theorem cos_sin_reset :
  forall S n c (m : machine S) M s s' o', aligned n (m_info m) -> sized n m -> cs_machine c m = Ok M -> cs_remove c = false ->
  ~ In (fun_name "cos" (cs_angle c)) (i_names (m_info m)) -> ~ In (fun_name "sin" (cs_angle c)) (i_names (m_info m)) ->
  m_reset M s = (s', Ok o') ->
  exists o e, m_reset m s = (s', Ok o) /\ shown (i_names (m_info m)) o (cs_angle c) = Some e /\ o' = o ++ [cos (e * PI); sin (e * PI)] /\ length o' = length (i_names (m_info M)).
Proof.
  intros S n c m M s s' o' Ha Hs H Hf Hc Hi Hm. destruct (cs_machine_inv n c m M Ha H) as (idx & Hx & Hnm & Einf & Er & _). rewrite Er in Hm. unfold post in Hm. destruct (m_reset m s) as [s1 r] eqn:E. cbn [fst snd] in Hm.
  destruct r as [o|e]; [|discriminate]. pose proof (proj1 Hs _ _ _ E) as Hl. cbn [bind] in Hm. destruct (nth_error o idx) as [e|] eqn:Eo; [|apply nth_error_None in Eo; lia].
  rewrite (get_cos_sin_ok _ _ _ Eo) in Hm. injection Hm as <- <-. destruct Ha as (L1 & L2 & L3 & L4 & L5 & Hn & Hp). exists o, e. split; [reflexivity|]. split; [apply shown_iff; [exact Hn|]; exists idx; auto|]. split; [reflexivity|].
  rewrite Einf. cbn [i_names]. rewrite !app_length, kept_length, Hf by lia. cbn [length]. lia.
Qed.
Print Assumptions cos_sin_reset.
Example cos_sin_reset_example : let m := still ["omega"; "epsilon"; "i"] [1; PI; 1] [1/2; 1; 1/3] (SBox 3) None in
  aligned 3 (m_info m) /\ sized 3 m /\ exists M, cs_machine {| cs_angle := "epsilon"; cs_remove := false |} m = Ok M /\ m_reset M tt = (tt, Ok [1/2; 1; 1/3; cos (1 * PI); sin (1 * PI)]).
Proof. split; [apply (still_aligned ["omega"; "epsilon"; "i"]); [nodup|reflexivity]|]. split; [apply (still_sized ["omega"; "epsilon"; "i"]); reflexivity|]. eexists. split; reflexivity. Qed.

(** ... but with [remove_angle] the reset observation still holds the angle: it always has
    one entry more than announced, and the name of the sine shows the cosine. *)
Theorem cos_sin_reset_removed_angle_refuted :
  forall S n c (m : machine S) M s s' o', aligned n (m_info m) -> sized n m -> cs_machine c m = Ok M -> cs_remove c = true ->
  ~ In (fun_name "cos" (cs_angle c)) (i_names (m_info m)) -> ~ In (fun_name "sin" (cs_angle c)) (i_names (m_info m)) ->
  m_reset M s = (s', Ok o') ->
  length o' = Datatypes.S (length (i_names (m_info M))) /\
  exists o e, m_reset m s = (s', Ok o) /\ shown (i_names (m_info m)) o (cs_angle c) = Some e /\
    shown (i_names (m_info M)) o' (fun_name "sin" (cs_angle c)) = Some (cos (e * PI)).
Proof.
  intros S n c m M s s' o' Ha Hs H Hf Hc Hi Hm. destruct (cs_machine_inv n c m M Ha H) as (idx & Hx & Hnm & Einf & Er & _). rewrite Er in Hm. unfold post in Hm. destruct (m_reset m s) as [s1 r] eqn:E. cbn [fst snd] in Hm.
  destruct r as [o|e]; [|discriminate]. pose proof (proj1 Hs _ _ _ E) as Hl. cbn [bind] in Hm. destruct (nth_error o idx) as [e|] eqn:Eo; [|apply nth_error_None in Eo; lia].
  rewrite (get_cos_sin_ok _ _ _ Eo) in Hm. injection Hm as <- <-. destruct (cos_sin_announced _ _ _ _ _ Ha H Hc Hi) as [Ha' _]. destruct Ha as (L1 & L2 & L3 & L4 & L5 & Hn & Hp). rewrite Hf in Ha'. destruct Ha' as (L1' & _ & _ & _ & _ & Hn' & _).
  split; [rewrite app_length; cbn [length]; lia|]. exists o, e. split; [reflexivity|]. split; [apply shown_iff; [exact Hn|]; exists idx; auto|]. apply shown_iff; [exact Hn'|]. exists n. split.
  - rewrite Einf. cbn [i_names]. pose proof (kept_length c idx (i_names (m_info m)) ltac:(lia)) as K. rewrite Hf in K. replace n with (Datatypes.S (length (kept c idx (i_names (m_info m))))) by lia. apply nth_error_snoc2.
  - rewrite <- Hl. apply nth_error_snoc2.
Qed.
Print Assumptions cos_sin_reset_removed_angle_refuted.
Example cos_sin_reset_removed_angle_example : let m := still ["omega"; "epsilon"; "i"] [1; PI; 1] [1/2; 1; 1/3] (SBox 3) None in
  aligned 3 (m_info m) /\ sized 3 m /\ exists M, cs_machine {| cs_angle := "epsilon"; cs_remove := true |} m = Ok M /\ m_reset M tt = (tt, Ok [1/2; 1; 1/3; cos (1 * PI); sin (1 * PI)]) /\ i_names (m_info M) = ["omega"; "i"; "cos(epsilon)"; "sin(epsilon)"].
Proof. split; [apply (still_aligned ["omega"; "epsilon"; "i"]); [nodup|reflexivity]|]. split; [apply (still_sized ["omega"; "epsilon"; "i"]); reflexivity|]. eexists. split; [reflexivity|]. split; reflexivity. Qed.

(** Hence a dq action wrapper around it can never be reset. *)
Theorem dq_over_removed_angle_reset_raises :
  forall S n c k (m : machine S) M D x, aligned n (m_info m) -> sized n m -> cs_machine c m = Ok M -> cs_remove c = true -> dq_machine k M = Ok D ->
  (exists s' o, m_reset m (dq_in x) = (s', Ok o)) -> snd (m_reset D x) = Err ValueError.
Proof.
  intros S n c k m M D x Ha Hs H Hf HD (s' & o & Eo). destruct (cs_machine_inv n c m M Ha H) as (idx & Hx & Hnm & Einf & Er & _). unfold dq_machine in HD. destruct (dq_info k (m_info M)) as [pi|]; [|discriminate]. cbn [bind] in HD. apply Ok_inj in HD. subst D.
  cbn [m_reset]. unfold dq_reset. rewrite Er, Eo. unfold post. cbn [fst snd bind]. pose proof (proj1 Hs _ _ _ Eo) as Hl. destruct (nth_error o idx) as [e|] eqn:Ee; [|apply nth_error_None in Ee; lia]. rewrite (get_cos_sin_ok _ _ _ Ee). cbn [bind].
  unfold np_mul. rewrite Einf. cbn [i_limits]. destruct Ha as (L1 & L2 & _). rewrite !app_length, kept_length, Hf by lia. cbn [length]. destruct (Nat.eqb_spec (length o + 2) (length (i_limits (m_info m)) - 1 + 2)); [lia|reflexivity].
Qed.
Print Assumptions dq_over_removed_angle_reset_raises.
Example dq_over_removed_angle_example : let m := still ["omega"; "epsilon"; "psi_angle"] [1; PI; PI] [1/2; 1; 1/3] (SBox 3) None in
  aligned 3 (m_info m) /\ sized 3 m /\ exists M D, cs_machine {| cs_angle := "epsilon"; cs_remove := true |} m = Ok M /\ dq_machine (DqClassic "psi_angle") M = Ok D /\ snd (m_reset D {| dq_state := None; dq_in := tt |}) = Err ValueError.
Proof. split; [apply (still_aligned ["omega"; "epsilon"; "psi_angle"]); [nodup|reflexivity]|]. split; [apply (still_sized ["omega"; "epsilon"; "psi_angle"]); reflexivity|]. do 2 eexists. split; [reflexivity|]. split; reflexivity. Qed.

(** ** C60 Sum of currents *)
(** Value of the named states. *)
Definition values (names : list string) (o : list R) (ks : list string) (vs : list R) : Prop :=
  length vs = length ks /\ forall j k, nth_error ks j = Some k -> exists v, shown names o k = Some v /\ nth_error vs j = Some v.
Lemma values_select names o idx ks vs n : NoDup names -> length names = n -> length o = n ->
  length idx = length ks -> (forall j k, nth_error ks j = Some k -> exists i, nth_error idx j = Some i /\ nth_error names i = Some k) -> select idx o = Ok vs -> values names o ks vs.
Proof.
  intros Hn Ln Lo L G Hs. destruct (select_inv _ _ _ Hs) as [L' G']. split; [lia|]. intros j k Hj. destruct (G j k Hj) as (i & Hi & Hk). rewrite (shown_at names o i k Hn Hk).
  assert (Hil : (i < n)%nat) by (rewrite <- Ln; apply nth_error_Some; congruence). destruct (nth_error o i) as [v|] eqn:E; [|apply nth_error_None in E; lia]. exists v. split; [reflexivity|]. rewrite (G' j i Hi). exact E.
Qed.

(** Steps and resets append the sum of the shown values of the currents, nothing else
    changes. *)
Theorem current_sum_observation :
  forall S n c (m : machine S) M, aligned n (m_info m) -> sized n m -> cu_machine c m = Ok M ->
  (forall a s s' o', m_sim M a s = (s', Ok o') -> exists o vs, m_sim m a s = (s', Ok o) /\ values (i_names (m_info m)) o (cu_currents c) vs /\ o' = o ++ [rsum vs]) /\
  (forall s s' o', m_reset M s = (s', Ok o') -> exists o vs, m_reset m s = (s', Ok o) /\ values (i_names (m_info m)) o (cu_currents c) vs /\ o' = o ++ [rsum vs]) /\
  (forall a s s' o, m_sim m a s = (s', Ok o) -> exists o', m_sim M a s = (s', Ok o')) /\ (forall s s' o, m_reset m s = (s', Ok o) -> exists o', m_reset M s = (s', Ok o')).
Proof.
  intros S n c m M Ha [Hs1 Hs2] H. destruct (cu_machine_inv n c m M Ha H) as (idx & lim & nom & ll & nn & p & L & G & B & _ & _ & _ & _ & _ & _ & Er & Es). destruct Ha as (L1 & _ & _ & _ & _ & Hn & _).
  assert (K : forall o o', length o = n -> add_sum idx o = Ok o' -> exists vs, values (i_names (m_info m)) o (cu_currents c) vs /\ o' = o ++ [rsum vs]).
  { intros o o' Lo Ho. destruct (add_sum_inv _ _ _ Ho) as (vs & Hv & ->). exists vs. split; [|reflexivity]. eapply values_select; eauto. }
  assert (K2 : forall o, length o = n -> exists o', add_sum idx o = Ok o').
  { intros o Lo. destruct (select_ok idx o) as (r & Hr & _); [intros i Hi; rewrite Lo; auto|]. unfold add_sum. rewrite Hr. cbn [bind]. eauto. }
  split; [|split; [|split]].
  - intros a s s' o'. rewrite Es. unfold post. destruct (m_sim m a s) as [s1 [o|e]] eqn:E; cbn [fst snd bind]; intros Hm; [|discriminate]. apply pair_equal_spec in Hm. destruct Hm as [<- Hm]. destruct (K o o' (Hs2 _ _ _ _ E) Hm) as (vs & V1 & V2). eauto.
  - intros s s' o'. rewrite Er. unfold post. destruct (m_reset m s) as [s1 [o|e]] eqn:E; cbn [fst snd bind]; intros Hm; [|discriminate]. apply pair_equal_spec in Hm. destruct Hm as [<- Hm]. destruct (K o o' (Hs1 _ _ _ E) Hm) as (vs & V1 & V2). eauto.
  - intros a s s' o E. destruct (K2 o (Hs2 _ _ _ _ E)) as [o' Ho]. rewrite Es, E. unfold post. cbn [fst snd bind]. rewrite Ho. eauto.
  - intros s s' o E. destruct (K2 o (Hs1 _ _ _ E)) as [o' Ho]. rewrite Er, E. unfold post. cbn [fst snd bind]. rewrite Ho. eauto.
Qed.
Print Assumptions current_sum_observation.
Definition two_currents (la le : R) (o : list R) : machine unit := still ["omega"; "i_a"; "i_e"] [1; la; le] o (SBox 2) None.
Example current_sum_observation_example : aligned 3 (m_info (two_currents 3 3 [0; 1/2; 1/4])) /\ sized 3 (two_currents 3 3 [0; 1/2; 1/4]) /\
  exists M, cu_machine {| cu_currents := ["i_a"; "i_e"]; cu_max := true |} (two_currents 3 3 [0; 1/2; 1/4]) = Ok M /\ m_reset M tt = (tt, Ok [0; 1/2; 1/4; 1/2 + (1/4 + 0)]).
Proof. split; [apply (still_aligned ["omega"; "i_a"; "i_e"]); [nodup|reflexivity]|]. split; [apply (still_sized ["omega"; "i_a"; "i_e"]); reflexivity|]. eexists. split; reflexivity. Qed.

(** The announced data fit together again. *)
Theorem current_sum_announced :
  forall S n c (m : machine S) M, aligned n (m_info m) -> cu_machine c m = Ok M -> ~ In "i_sum" (i_names (m_info m)) -> aligned (n + 1) (m_info M).
Proof.
  intros S n c m M Ha H Hi. destruct (cu_machine_inv n c m M Ha H) as (idx & lim & nom & ll & nn & p & L & G & B & _ & _ & _ & _ & Ep & Einf & Er & Es). destruct Ha as (L1 & L2 & L3 & L4 & L5 & Hn & Hp).
  assert (Hnd : NoDup (i_names (m_info m) ++ ["i_sum"])). { apply NoDup_rev in Hn. rewrite <- (rev_involutive (_ ++ _)). apply NoDup_rev. rewrite rev_app_distr. cbn [rev app]. constructor; [rewrite <- in_rev; exact Hi|exact Hn]. }
  assert (Hpn : p = n). { pose proof (str_index_ok _ _ _ Ep) as Hq. apply (proj1 (NoDup_nth_error _) Hnd); [apply nth_error_Some; congruence|]. rewrite Hq, nth_error_app2 by lia. rewrite L1, Nat.sub_diag. reflexivity. }
  rewrite Einf. unfold aligned. cbn [i_names i_limits i_nominal i_low i_high i_pos]. rewrite !app_length, L1, L2, L3, L4, L5. cbn [length]. do 5 (split; [reflexivity|]). split; [exact Hnd|].
  intros k j. rewrite dict_get_set. destruct (String.eqb_spec "i_sum" k) as [<-|Hk].
  - subst p. split; [intros E; injection E as <-; apply str_index_ok; exact Ep|]. intros E. f_equal. apply (proj1 (NoDup_nth_error _) Hnd); [rewrite app_length; cbn; lia|]. rewrite E. apply str_index_ok. exact Ep.
  - rewrite Hp. destruct (Nat.ltb_spec j n) as [Hj|Hj]; [rewrite nth_error_app1 by lia; reflexivity|]. split; intros E.
    + assert (nth_error (i_names (m_info m)) j <> None) as Hc by congruence. apply nth_error_Some in Hc. lia.
    + rewrite nth_error_app2 in E by lia. rewrite L1 in E. destruct (j - n)%nat as [|q]; cbn in E; [congruence|destruct q; discriminate].
Qed.
Print Assumptions current_sum_announced.

(** With equal limits and limit mode 'max' the new entry times its limit is the sum of the
    physical currents. *)
Theorem current_sum_physical :
  forall S n c (m : machine S) M a s s' o' Lim, aligned n (m_info m) -> sized n m -> cu_machine c m = Ok M -> cu_max c = true ->
  (forall k l, In k (cu_currents c) -> shown (i_names (m_info m)) (i_limits (m_info m)) k = Some l -> l = Lim) ->
  m_sim M a s = (s', Ok o') ->
  exists o vs ls e l, m_sim m a s = (s', Ok o) /\ values (i_names (m_info m)) o (cu_currents c) vs /\ values (i_names (m_info m)) (i_limits (m_info m)) (cu_currents c) ls /\
    o' = o ++ [e] /\ i_limits (m_info M) = i_limits (m_info m) ++ [l] /\ e * l = rsum (map2 Rmult vs ls).
Proof.
  intros S n c m M a s s' o' Lim Ha Hs H Hmax HL Hm. destruct (cu_machine_inv n c m M Ha H) as (idx & lim & nom & ll & nn & p & L & G & B & El & Elim & _ & _ & _ & Einf & Er & Es).
  destruct (proj1 (current_sum_observation S n c m M Ha Hs H) _ _ _ _ Hm) as (o & vs & Em & V & Eo). pose proof Ha as (L1 & L2 & _ & _ & _ & Hn & _).
  pose proof (values_select (i_names (m_info m)) (i_limits (m_info m)) idx (cu_currents c) ll n Hn L1 L2 L G El) as VL.
  assert (HLl : forall x, In x ll -> x = Lim).
  { intros x Hx. apply In_nth_error in Hx. destruct Hx as [j Hj]. assert (Hjl : (j < length (cu_currents c))%nat) by (rewrite <- (proj1 VL); apply nth_error_Some; congruence).
    destruct (nth_error (cu_currents c) j) as [k|] eqn:Ek; [|apply nth_error_None in Ek; lia]. destruct (proj2 VL j k Ek) as (v & Hv1 & Hv2). rewrite Hj in Hv2. injection Hv2 as <-. eapply HL; [eapply nth_error_In, Ek|exact Hv1]. }
  unfold cu_limit in Elim. rewrite Hmax in Elim. assert (lim = Lim). { destruct ll as [|x ll]; [discriminate|]. rewrite (py_max_all (x :: ll) Lim) in Elim; [apply Ok_inj in Elim; congruence|discriminate|exact HLl]. } subst lim.
  exists o, vs, ll, (rsum vs), Lim. rewrite Einf. cbn [i_limits]. do 3 (split; [assumption|]). split; [exact Eo|]. split; [reflexivity|]. symmetry. apply rsum_scale; [rewrite (proj1 V), (proj1 VL); reflexivity|exact HLl].
Qed.
Print Assumptions current_sum_physical.
Example current_sum_physical_example : let m := two_currents 3 3 [0; 1/2; 1/4] in forall k l, In k ["i_a"; "i_e"] -> shown (i_names (m_info m)) (i_limits (m_info m)) k = Some l -> l = 3.
Proof. cbn. intros k l [<-|[<-|[]]] E; cbn in E; congruence. Qed.

(** With limit mode 'sum' it is too large by the number of currents, ... *)
Theorem current_sum_sum_mode_refuted :
  forall S n c (m : machine S) M a s s' o' Lim, aligned n (m_info m) -> sized n m -> cu_machine c m = Ok M -> cu_max c = false ->
  (forall k l, In k (cu_currents c) -> shown (i_names (m_info m)) (i_limits (m_info m)) k = Some l -> l = Lim) ->
  m_sim M a s = (s', Ok o') ->
  exists o vs ls e l, m_sim m a s = (s', Ok o) /\ values (i_names (m_info m)) o (cu_currents c) vs /\ values (i_names (m_info m)) (i_limits (m_info m)) (cu_currents c) ls /\
    o' = o ++ [e] /\ i_limits (m_info M) = i_limits (m_info m) ++ [l] /\ e * l = INR (length (cu_currents c)) * rsum (map2 Rmult vs ls).
Proof.
  intros S n c m M a s s' o' Lim Ha Hs H Hmax HL Hm. destruct (cu_machine_inv n c m M Ha H) as (idx & lim & nom & ll & nn & p & L & G & B & El & Elim & _ & _ & _ & Einf & Er & Es).
  destruct (proj1 (current_sum_observation S n c m M Ha Hs H) _ _ _ _ Hm) as (o & vs & Em & V & Eo). pose proof Ha as (L1 & L2 & _ & _ & _ & Hn & _).
  pose proof (values_select (i_names (m_info m)) (i_limits (m_info m)) idx (cu_currents c) ll n Hn L1 L2 L G El) as VL.
  assert (HLl : forall x, In x ll -> x = Lim).
  { intros x Hx. apply In_nth_error in Hx. destruct Hx as [j Hj]. assert (Hjl : (j < length (cu_currents c))%nat) by (rewrite <- (proj1 VL); apply nth_error_Some; congruence).
    destruct (nth_error (cu_currents c) j) as [k|] eqn:Ek; [|apply nth_error_None in Ek; lia]. destruct (proj2 VL j k Ek) as (v & Hv1 & Hv2). rewrite Hj in Hv2. injection Hv2 as <-. eapply HL; [eapply nth_error_In, Ek|exact Hv1]. }
  unfold cu_limit in Elim. rewrite Hmax in Elim. apply Ok_inj in Elim. subst lim.
  exists o, vs, ll, (rsum vs), (rsum ll). rewrite Einf. cbn [i_limits]. do 3 (split; [assumption|]). split; [exact Eo|]. split; [reflexivity|]. rewrite (rsum_const ll Lim HLl), (rsum_scale vs ll Lim); [rewrite (proj1 VL); ring|rewrite (proj1 V), (proj1 VL); reflexivity|exact HLl].
Qed.
Print Assumptions current_sum_sum_mode_refuted.

(** ... and with different limits it is not the physical sum in mode 'max' either. *)
Theorem current_sum_unequal_limits_refuted :
  exists (m : machine unit) M o', aligned 3 (m_info m) /\ sized 3 m /\ cu_machine {| cu_currents := ["i_a"; "i_e"]; cu_max := true |} m = Ok M /\
    m_sim M (ABox []) tt = (tt, Ok (o' ++ [1])) /\ i_limits (m_info M) = [1; 4; 2; 4] /\ shown (i_names (m_info m)) o' "i_a" = Some (1/2) /\ shown (i_names (m_info m)) o' "i_e" = Some (1/2) /\
    1 * 4 <> 1/2 * 4 + 1/2 * 2.
Proof.
  exists (two_currents 4 2 [0; 1/2; 1/2]). eexists. exists [0; 1/2; 1/2]. split; [apply (still_aligned ["omega"; "i_a"; "i_e"]); [nodup|reflexivity]|]. split; [apply (still_sized ["omega"; "i_a"; "i_e"]); reflexivity|].
  split; [reflexivity|]. split; [cbn [m_sim]; unfold post, add_sum; cbn; replace (1 / 2 + (1 / 2 + 0)) with 1 by lra; reflexivity|]. split; [cbn; unfold Rmax; destruct (Rle_dec 4 2); [lra|reflexivity]|]. split; [reflexivity|]. split; [reflexivity|]. lra.
Qed.
Print Assumptions current_sum_unequal_limits_refuted.

(** The entry leaves its announced range [-1, 1] although all inner states stay in theirs. *)
Theorem current_sum_in_announced_space_refuted :
  exists (m : machine unit) M o o', aligned 3 (m_info m) /\ sized 3 m /\ cu_machine {| cu_currents := ["i_a"; "i_e"]; cu_max := true |} m = Ok M /\
    m_sim m (ABox []) tt = (tt, Ok o) /\ (forall x, In x o -> -1 <= x <= 1) /\ m_sim M (ABox []) tt = (tt, Ok o') /\ nth_error (i_high (m_info M)) 3 = Some 1 /\ exists e, nth_error o' 3 = Some e /\ e > 1.
Proof.
  exists (two_currents 3 3 [0; 1; 1]). eexists. exists [0; 1; 1]. eexists. split; [apply (still_aligned ["omega"; "i_a"; "i_e"]); [nodup|reflexivity]|]. split; [apply (still_sized ["omega"; "i_a"; "i_e"]); reflexivity|].
  split; [reflexivity|]. split; [reflexivity|]. split; [cbn; intros x [<-|[<-|[<-|[]]]]; lra|]. split; [reflexivity|]. split; [reflexivity|]. eexists. split; [reflexivity|]. cbn. lra.
Qed.
Print Assumptions current_sum_in_announced_space_refuted.

(** Two such wrappers announce the name twice; its position is that of the inner one, so
    the sum of the outer one has no position. *)
Theorem stacked_current_sums_refuted :
  forall S n c1 c2 (m : machine S) M1 M2, aligned n (m_info m) -> ~ In "i_sum" (i_names (m_info m)) -> cu_machine c1 m = Ok M1 -> cu_machine c2 M1 = Ok M2 ->
  i_names (m_info M2) = i_names (m_info m) ++ ["i_sum"; "i_sum"] /\ dict_get "i_sum" (i_pos (m_info M2)) = Some n.
Proof.
  intros S n c1 c2 m M1 M2 Ha Hi H1 H2. pose proof (current_sum_announced S n c1 m M1 Ha H1 Hi) as Ha1. destruct (cu_machine_inv n c1 m M1 Ha H1) as (idx & lim & nom & ll & nn & p & _ & _ & _ & _ & _ & _ & _ & Ep & Einf & _).
  destruct (cu_machine_inv _ c2 M1 M2 Ha1 H2) as (idx2 & lim2 & nom2 & ll2 & nn2 & p2 & _ & _ & _ & _ & _ & _ & _ & Ep2 & Einf2 & _). rewrite Einf2. cbn [i_names i_pos]. split; [rewrite Einf; cbn [i_names]; rewrite <- app_assoc; reflexivity|].
  rewrite dict_get_set, String.eqb_refl. f_equal. rewrite Einf in Ep2. cbn [i_names] in Ep2. clear - Ep2 Hi Ha. destruct Ha as (L1 & _). revert n p2 L1 Ep2. induction (i_names (m_info m)) as [|x l IH]; intros n p2 L1 Ep2; cbn in *.
  - apply Ok_inj in Ep2. lia.
  - destruct (String.eqb_spec x "i_sum") as [->|Hx]; [exfalso; auto|]. destruct (str_index "i_sum" ((l ++ ["i_sum"]) ++ ["i_sum"])) as [q|] eqn:E; [|discriminate]. cbn [bind] in Ep2. apply Ok_inj in Ep2. subst p2. destruct n as [|n]; [lia|]. f_equal. apply IH; [tauto|lia|reflexivity].
Qed.
Print Assumptions stacked_current_sums_refuted.
Example stacked_current_sums_example : exists M1 M2, cu_machine {| cu_currents := ["i_a"; "i_e"]; cu_max := true |} (two_currents 3 3 [0; 1; 1]) = Ok M1 /\ cu_machine {| cu_currents := ["i_a"; "i_e"]; cu_max := true |} M1 = Ok M2.
Proof. do 2 eexists. split; reflexivity. Qed.
