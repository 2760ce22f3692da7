(** The voltages in the observations of whole environments. *)
From Verif Require Import PyBaseFacts PyDict Conv_Model Wrap_Model RefGen_Model Constraint_Model Reward_Model Preset_Model Env_Model Env_Proofs Full_Model Full_Spec Full_Proofs3 Repro_Spec Repro_Proofs2 Repro_Proofs3 Cmd_Spec Cmd_Proofs.
Local Open Scope string_scope. Local Open Scope list_scope. Local Open Scope R_scope.

Lemma wrap_keeps {S} ws : forall (m M : machine S), wrap_all ws m = Ok M ->
  i_names (m_info M) = i_names (m_info m) ++ map (fun _ => "i_sum") ws /\
  forall a s s1 o, m_sim M a s = (s1, Ok o) -> exists o0, m_sim m a s = (s1, Ok o0) /\ forall pos y, nth_error o0 pos = Some y -> nth_error o pos = Some y.
Proof.
  induction ws as [|w ws IH]; intros m M E; cbn [wrap_all map] in E |- *.
  - injection E as <-. rewrite app_nil_r. split; [reflexivity|]. intros a s s1 o Eo. eauto.
  - destruct (cu_machine _ m) as [m1|] eqn:E1; cbn [bind] in E; [|discriminate E]. destruct (IH m1 M E) as [N K]. unfold cu_machine in E1. destruct (cu_info _ (m_info m)) as [ii|] eqn:Ei; cbn [bind] in E1; [|discriminate E1]. injection E1 as <-. cbn [m_info m_sim] in *.
    assert (Ni : i_names (snd ii) = i_names (m_info m) ++ ["i_sum"]).
    { unfold cu_info in Ei. repeat match type of Ei with bind ?x _ = _ => destruct x; cbn [bind] in Ei; [|discriminate Ei] end. injection Ei as <-. reflexivity. }
    split; [rewrite N, Ni, <- app_assoc; reflexivity|]. intros a s s1 o Eo. destruct (K a s s1 o Eo) as (o1 & P1 & P2). destruct (m_sim m a s) as [s2 [o2|]]; unfold post in P1; cbn [fst snd bind] in P1; [|discriminate P1].
    unfold add_sum in P1. destruct (select (fst ii) o2) as [c|]; cbn [bind] in P1; [|discriminate P1]. injection P1 as <- <-. exists o2. split; [reflexivity|]. intros pos y Hy. apply P2. rewrite nth_error_app1; [exact Hy|]. apply nth_error_Some. congruence.
Qed.
Lemma terminal_pos m k name : nth_error (terminals m) k = Some name -> exists pos, nth_error (term_pos m) k = Some pos /\ nth_error (motor_states m) pos = Some name.
Proof. intros H. destruct m; kcases k pos H; cbn; eauto. Qed.
Lemma select_at {A} (idx : list nat) : forall (l r : list A) k i, select idx l = Ok r -> nth_error idx k = Some i -> nth_error r k = nth_error l i.
Proof.
  induction idx as [|i0 idx IH]; intros l r k i E Hk; [destruct k; discriminate Hk|]. cbn [select] in E. destruct (nth_error l i0) as [x|] eqn:Ex; [|discriminate E].
  destruct (select idx l) as [r'|] eqn:Er; cbn [bind] in E; [|discriminate E]. injection E as <-. destruct k as [|k]; cbn [nth_error] in *; [injection Hk as <-; congruence|]. eapply IH; eassumption.
Qed.
Lemma outcome_of {Act Ref Obs P G W} (sys : system Act Ref Obs P G W) ops : forall w o out, In (o, out) (snd (Env_Model.run sys ops w)) ->
  exists h rest, ops = h ++ o :: rest /\ out = snd (run_op sys o (fst (Env_Model.run sys h w))).
Proof.
  induction ops as [|o0 ops IH]; intros w o out H; [contradiction|]. cbn [Env_Model.run] in H. destruct (run_op sys o0 w) as [w1 out0] eqn:E0. destruct (Env_Model.run sys ops w1) as [w2 l] eqn:E1. cbn [snd] in H. destruct H as [H|H].
  - injection H as <- <-. exists [], ops. split; [reflexivity|]. cbn [Env_Model.run fst]. rewrite E0. reflexivity.
  - specialize (IH w1 o out). rewrite E1 in IH. destruct (IH H) as (h & rest & -> & ->). exists (o0 :: h), rest. split; [reflexivity|]. cbn [Env_Model.run]. rewrite E0. destruct (Env_Model.run sys h w1). reflexivity.
Qed.
