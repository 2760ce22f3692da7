(** Proofs about the dq action wrapper and the flux observer. *)
From Verif Require Import PyBase PyBaseFacts PyDict PyDictFacts Conv_Model Transform_Model Transform_Proofs Transform_Props PhysSys_Model Wrap_Model Wrap_Spec Wrap_Proofs Wrap_Proofs2.
Local Open Scope string_scope. Local Open Scope list_scope. Local Open Scope R_scope.

Lemma transformation_spec v e : length v = 2%nat -> exists u, transformation v e = Ok u /\ length u = 3%nat /\ abc_to_dq u e false = Ok v.
Proof. intros H. destruct (dq_abc_roundtrip v e false H) as (u & E1 & L & _ & E2). exists u. split; [exact E1|]. auto. Qed.
Lemma item_shown names o i k e : NoDup names -> nth_error names i = Some k -> item o i = Ok e -> shown names o k = Some e.
Proof. intros Hn Hk Hi. rewrite (shown_at names o i k Hn Hk). unfold item in Hi. destruct (nth_error o i); [apply Ok_inj in Hi; congruence|discriminate]. Qed.
Lemma item_ok (o : list R) i : (i < length o)%nat -> exists e, item o i = Ok e.
Proof. intros H. unfold item. destruct (nth_error o i) as [e|] eqn:E; [eauto|apply nth_error_None in E; lia]. Qed.

Definition phys {S} (m : machine S) (o : list R) : list R := map2 Rmult o (i_limits (m_info m)).
Lemma np_mul_ok {S} n (m : machine S) o : aligned n (m_info m) -> length o = n -> np_mul o (i_limits (m_info m)) = Ok (phys m o) /\ length (phys m o) = n.
Proof. intros (L1 & L2 & _) Lo. unfold np_mul, phys. rewrite map2_length, Lo, L2, Nat.eqb_refl, Nat.min_id. auto. Qed.

Section DqFacts.
Context {S : Type} (n : nat) (k : dqkind) (m : machine S) (Ha : aligned n (m_info m)) (Hs : sized n m).

Lemma dq_info_inv p i' : dq_info k (m_info m) = Ok (p, i') ->
  mi_three (i_motor (m_info m)) = true /\ nth_error (i_names (m_info m)) (dp_omega p) = Some "omega" /\ nth_error (i_names (m_info m)) (dp_angle p) = Some (dq_angle_name k) /\ dict_get "p" (mi_par (i_motor (m_info m))) = Some (dp_p p) /\
  dp_adv p = 1 / 2 + match i_dead (m_info m) with Some d => INR d | None => 0 end /\
  match k with DqDfim true => dp_flux p = None | DqDfim false => exists f, dp_flux p = Some f /\ nth_error (i_names (m_info m)) f = Some "psi_angle" | _ => True end.
Proof.
  intros H. unfold dq_info, py_assert in H. destruct (mi_three (i_motor (m_info m))); [|discriminate]. cbn [bind] in H. destruct (str_index "omega" _) as [om|] eqn:E1; [|discriminate]. cbn [bind] in H.
  destruct (str_index (dq_angle_name k) _) as [an|] eqn:E2; [|discriminate]. cbn [bind] in H. unfold dict_item in H. destruct (dict_get "p" _) as [pp|] eqn:E3; [|discriminate]. cbn [bind] in H.
  split; [reflexivity|]. destruct k as [ang|ctor|].
  - cbn [bind] in H. apply Ok_inj in H. apply pair_equal_spec in H. destruct H as [<- _]. cbn. split; [apply str_index_ok, E1|]. split; [apply str_index_ok, E2|]. auto.
  - destruct (str_index "psi_angle" _) as [f|] eqn:E4; [|discriminate]. cbn [bind] in H. apply Ok_inj in H. apply pair_equal_spec in H. destruct H as [<- _]. cbn. split; [apply str_index_ok, E1|]. split; [apply str_index_ok, E2|]. do 2 (split; [auto|]). destruct ctor; [reflexivity|]. exists f. split; [reflexivity|apply str_index_ok, E4].
  - cbn [bind] in H. apply Ok_inj in H. apply pair_equal_spec in H. destruct H as [<- _]. cbn. split; [apply str_index_ok, E1|]. split; [apply str_index_ok, E2|]. auto.
Qed.

Definition advanced (p : dq_par) (e w : R) : R := e + dp_adv p * i_tau (m_info m) * w * dp_p p.
Lemma abc_action_spec p i' y v : dq_info k (m_info m) = Ok (p, i') -> k <> DqDfim true -> length y = n -> length v = action_size k ->
  exists abc e w fx, abc_action k p (i_tau (m_info m)) y v = Ok abc /\ shown (i_names (m_info m)) y (dq_angle_name k) = Some e /\ shown (i_names (m_info m)) y "omega" = Some w /\
    (match k with DqDfim _ => shown (i_names (m_info m)) y "psi_angle" = Some fx | _ => True end) /\ turned k (advanced p e w) fx v abc.
Proof.
  intros H Hk Ly Lv. destruct (dq_info_inv p i' H) as (_ & Ho & Hang & _ & _ & Hf). destruct Ha as (L1 & _ & _ & _ & _ & Hn & _).
  destruct (item_ok y (dp_angle p)) as [e Ee]; [rewrite Ly, <- L1; apply nth_error_Some; congruence|]. destruct (item_ok y (dp_omega p)) as [w Ew]; [rewrite Ly, <- L1; apply nth_error_Some; congruence|].
  unfold abc_action, advance_angle. rewrite Ee, Ew. cbn [bind]. fold (advanced p e w).
  pose proof (item_shown _ _ _ _ _ Hn Hang Ee) as Se. pose proof (item_shown _ _ _ _ _ Hn Ho Ew) as Sw. destruct k as [ang|ctor|]; cbn [action_size] in Lv.
  - destruct (transformation_spec v (advanced p e w) Lv) as (u & E & L & Et). exists u, e, w, 0. split; [exact E|]. do 3 (split; [auto|]). split; [|exact L]. rewrite !firstn_all2 by lia. exact Et.
  - destruct ctor; [congruence|]. destruct Hf as (f & Ef & Hf). rewrite Ef. destruct (item_ok y f) as [fx Efx]; [rewrite Ly, <- L1; apply nth_error_Some; congruence|].
    destruct v as [|v1 [|v2 [|v3 [|v4 [|v5 v]]]]]; cbn in Lv; try discriminate. cbn [firstn skipn]. rewrite Efx. cbn [bind].
    destruct (transformation_spec [v1; v2] (advanced p e w) eq_refl) as (u & E & L & Et). destruct (transformation_spec [v3; v4] (fx - advanced p e w) eq_refl) as (u' & E' & L' & Et'). rewrite E, E'. cbn [bind].
    exists (u ++ u'), e, w, fx. split; [reflexivity|]. do 2 (split; [auto|]). split; [exact (item_shown _ _ _ _ _ Hn Hf Efx)|]. split.
    + rewrite <- L, firstn_app, Nat.sub_diag, firstn_all, app_nil_r. exact Et.
    + split; [rewrite app_length; lia|]. rewrite <- L, skipn_app, Nat.sub_diag, skipn_all. exact Et'.
  - destruct v as [|v1 [|v2 [|v3 [|v4 v]]]]; cbn in Lv; try discriminate. cbn [removelast rev app]. destruct (transformation_spec [v1; v2] (advanced p e w) eq_refl) as (u & E & L & Et). rewrite E. cbn [bind].
    exists (u ++ [v3]), e, w, 0. split; [reflexivity|]. do 3 (split; [auto|]). split.
    + rewrite <- L, firstn_app, Nat.sub_diag, firstn_all, app_nil_r. exact Et.
    + split; [rewrite app_length; cbn; lia|]. rewrite <- L, skipn_app, Nat.sub_diag, skipn_all. reflexivity.
Qed.

Definition applied (p : dq_par) (o : list R) (a u : action) : Prop :=
  exists v abc e w fx, a = ABox v /\ u = ABox abc /\ shown (i_names (m_info m)) (phys m o) (dq_angle_name k) = Some e /\ shown (i_names (m_info m)) (phys m o) "omega" = Some w /\
    (match k with DqDfim _ => shown (i_names (m_info m)) (phys m o) "psi_angle" = Some fx | _ => True end) /\ turned k (advanced p e w) fx v abc.

Lemma sims_dq p i' : dq_info k (m_info m) = Ok (p, i') -> k <> DqDfim true ->
  forall acts o0 (x : dqs S), length o0 = n -> dq_state x = Some (phys m o0) -> (forall a, In a acts -> exists v, a = ABox v /\ length v = action_size k) ->
  exists us, length us = length acts /\
    let D := {| m_info := i'; m_reset := dq_reset m; m_sim := dq_sim k p m |} in
    let r := sims D acts x in let r' := sims m us (dq_in x) in
    snd r = snd r' /\ dq_in (fst r) = fst r' /\
    forall j o a u, nth_error (o0 :: fst (snd r)) j = Some o -> nth_error acts j = Some a -> nth_error us j = Some u -> applied p o a u.
Proof.
  intros H Hk. induction acts as [|a acts IH]; intros o0 x L0 Hx Hacts.
  - exists []. cbn. split; [reflexivity|]. split; [reflexivity|]. split; [reflexivity|]. intros [|j] o a u _ Hj; discriminate.
  - destruct (Hacts a (or_introl eq_refl)) as (v & -> & Lv). destruct (np_mul_ok n m o0 Ha L0) as [_ Lp]. destruct (abc_action_spec p i' (phys m o0) v H Hk Lp Lv) as (abc & e & w & fx & Ea & Se & Sw & Sf & T).
    assert (Happ : applied p o0 (ABox v) (ABox abc)) by (exists v, abc, e, w, fx; auto 10).
    cbn [sims m_sim]. destruct (m_sim m (ABox abc) (dq_in x)) as [s [o|er]] eqn:Em.
    + destruct (np_mul_ok n m o Ha (proj2 Hs _ _ _ _ Em)) as [Emul Lo]. destruct (IH o {| dq_state := Some (phys m o); dq_in := s |} (proj2 Hs _ _ _ _ Em) eq_refl ltac:(intros a Hin; apply Hacts; now right)) as (us & Lu & I1 & I2 & I3). cbn zeta in *.
      exists (ABox abc :: us). split; [cbn; lia|]. assert (Ed : dq_sim k p m (ABox v) x = ({| dq_state := Some (phys m o); dq_in := s |}, Ok o)). { unfold dq_sim. rewrite Hx. cbn [bind]. rewrite Ea. rewrite Em. cbn [bind]. rewrite Emul. reflexivity. }
      rewrite Ed. cbn [sims]. rewrite Em. cbn [dq_in] in I1, I2. destruct (sims _ acts {| dq_state := Some (phys m o); dq_in := s |}) as [y out]. destruct (sims m us s) as [y' out']. cbn [fst snd] in *. subst out'.
      split; [reflexivity|]. split; [exact I2|]. intros [|j] o1 a1 u1 H1 H2 H3; cbn [nth_error see fst] in H1, H2, H3; [injection H1 as <-; injection H2 as <-; injection H3 as <-; exact Happ|]. eapply I3; eauto.
    + exists (ABox abc :: acts). split; [reflexivity|]. assert (Ed : dq_sim k p m (ABox v) x = ({| dq_state := dq_state x; dq_in := s |}, Err er)). { unfold dq_sim. rewrite Hx. cbn [bind]. rewrite Ea. rewrite Em. reflexivity. }
      rewrite Ed. cbn [sims]. rewrite Em. cbn [fst snd]. split; [reflexivity|]. split; [reflexivity|]. intros [|j] o1 a1 u1 H1 H2 H3; cbn [nth_error] in H1, H2, H3; [injection H1 as <-; injection H2 as <-; injection H3 as <-; exact Happ|destruct j; discriminate].
Qed.
End DqFacts.
