(** Drawn lines of reward and action plots. *)
From Coq Require Import Lia Lra.
From Verif Require Import PyBase PyBaseFacts Vis_Model Vis_Spec Vis_Proofs Vis_Proofs2 Vis_Proofs3 Vis_Proofs4.
Local Open Scope list_scope. Local Open Scope R_scope.

Definition one_line (p : tplot) : Prop := length (b_lines (t_b p)) = 1%nat.
Definition single (p : tplot) : Prop := match t_kind p with KState _ _ _ _ _ _ => False | _ => True end.
Lemma one_line_keep : forall p o p', single p -> one_line p -> t_op o p = (p', Ok tt) -> single p' /\ one_line p'.
Proof.
  intros p o p' Hs Hl E. unfold single, one_line in *. destruct o as [ev| | |]; cbn [t_op] in E.
  - destruct ev as [| |a|k st rf rw tm].
    + injection E as <-. auto.
    + injection E as <-. auto.
    + unfold t_on_step_begin, lift_r in E. destruct (t_kind p) eqn:Ek; [contradiction| |injection E as <-; rewrite Ek; auto].
      destruct (data_idx p); [|discriminate]. destruct a, discrete; try discriminate; try (injection E as <-; cbn [t_with_b t_kind]; rewrite Ek; auto).
      destruct (item_r l idx); [|discriminate]. injection E as <-. cbn [t_with_b t_kind]. rewrite Ek. auto.
    + unfold t_on_step_end, lift_r in E. destruct (t_kind p) eqn:Ek; [contradiction|injection E as <-; cbn [t_advance t_kind]; rewrite Ek; auto|].
      destruct (data_idx p); [|discriminate]. injection E as <-. cbn [t_advance t_with_b t_kind]. rewrite Ek. auto.
  - unfold t_initialize in E. cbv zeta in E. destruct (t_kind p) eqn:Ek; [contradiction| |];
      (match type of E with (_, snd ?r) = _ => destruct r as [b' r'] eqn:Eb end; cbn [fst snd] in E; injection E as <- Hr; subst r'; apply b_plot_ok in Eb; subst b'; cbn [t_with_b t_kind t_b]; auto).
  - unfold t_render in E. destruct (negb (b_axis (t_b p))); [discriminate|]. destruct (t_scale_y _); [|discriminate]. injection E as <-.
    cbn [t_kind t_b t_with_b b_render b_with_lines b_lines]. rewrite redraw_length. auto.
  - unfold t_reset_data in E. destruct (Nat.eqb (t_width p) 0); [discriminate|]. injection E as <-. destruct (t_kind p); [contradiction| |]; cbn; auto.
Qed.
Lemma one_line_init : forall p p', single p -> t_op PInit p = (p', Ok tt) -> single p' /\ one_line p'.
Proof.
  intros p p' Hs E. unfold single, one_line in *. cbn [t_op] in E. unfold t_initialize in E. cbv zeta in E. destruct (t_kind p) eqn:Ek; [contradiction| |];
      (match type of E with (_, snd ?r) = _ => destruct r as [b' r'] eqn:Eb end; cbn [fst snd] in E; injection E as <- Hr; subst r'; apply b_plot_ok in Eb; subst b'; cbn [t_with_b t_kind t_b]; auto).
Qed.
Lemma single_keep : forall p o p', single p -> t_op o p = (p', Ok tt) -> single p'.
Proof.
  intros p o p' Hs E. unfold single in *. destruct o as [ev| | |]; cbn [t_op] in E.
  - destruct ev as [| |a|k st rf rw tm].
    + injection E as <-. auto.
    + injection E as <-. auto.
    + unfold t_on_step_begin, lift_r in E. destruct (t_kind p) eqn:Ek; [contradiction| |injection E as <-; rewrite Ek; auto].
      destruct (data_idx p); [|discriminate]. destruct a, discrete; try discriminate; try (injection E as <-; cbn [t_with_b t_kind]; rewrite Ek; auto).
      destruct (item_r l idx); [|discriminate]. injection E as <-. cbn [t_with_b t_kind]. rewrite Ek. auto.
    + unfold t_on_step_end, lift_r in E. destruct (t_kind p) eqn:Ek; [contradiction|injection E as <-; cbn [t_advance t_kind]; rewrite Ek; auto|].
      destruct (data_idx p); [|discriminate]. injection E as <-. cbn [t_advance t_with_b t_kind]. rewrite Ek. auto.
  - destruct (one_line_init p p' Hs E) as [A _]. exact A.
  - unfold t_render in E. destruct (negb (b_axis (t_b p))); [discriminate|]. destruct (t_scale_y _); [|discriminate]. injection E as <-. exact Hs.
  - unfold t_reset_data in E. destruct (Nat.eqb (t_width p) 0); [discriminate|]. injection E as <-. destruct (t_kind p); [contradiction| |]; cbn; auto.
Qed.
Lemma single_drawn : forall h ys p p', one_line p -> b_y (t_b p) = h :: ys -> t_op PRender p = (p', Ok tt) -> b_lines (t_b p') = [(b_x (t_b p), deref (t_b p) h)].
Proof.
  intros h ys p p' Hl Hy E. cbn [t_op] in E. unfold t_render in E. destruct (negb (b_axis (t_b p))); [discriminate|]. destruct (t_scale_y _); [|discriminate]. injection E as <-.
  cbn [t_b t_with_b b_render b_with_lines b_lines]. rewrite Hy. unfold one_line in Hl. destruct (b_lines (t_b p)) as [|l1 [|l2 ls]]; try discriminate. reflexivity.
Qed.
Lemma run_single : forall ops p p', single p -> p_run t_op ops p = (p', Ok tt) -> single p'.
Proof.
  intros ops p p' Hs Hr. refine (run_keep _ t_op (fun _ => True) single _ ops p p' _ Hs Hr); [|apply Forall_forall; auto]. intros q o q' _. apply single_keep.
Qed.
Lemma run_line : forall ops1 ops2 p p', single p -> p_run t_op (ops1 ++ PInit :: ops2) p = (p', Ok tt) -> one_line p'.
Proof.
  intros ops1 ops2 p p' Hs Hr. apply p_run_ok_app in Hr. destruct Hr as [p1 [H1 Hr]]. change (PInit :: ops2) with ([PInit] ++ ops2) in Hr. apply p_run_ok_app in Hr. destruct Hr as [p2 [H2 H3]]. apply run_one in H2.
  pose proof (one_line_init _ _ (run_single _ _ _ Hs H1) H2) as S2.
  refine (proj2 (run_keep _ t_op (fun _ => True) (fun q => single q /\ one_line q) _ ops2 p2 p' _ S2 H3)); [|apply Forall_forall; auto].
  intros q o q' _ [A B]. apply one_line_keep; assumption.
Qed.
Lemma reward_y_keep : forall rd p o p', kept o -> (t_kind p = KReward rd /\ b_y (t_b p) = [rd]) -> t_op o p = (p', Ok tt) -> t_kind p' = KReward rd /\ b_y (t_b p') = [rd].
Proof.
  intros rd p o p' Hr [Hk Hy] Ho. destruct o as [ev| | |]; cbn [t_op] in Ho.
  - destruct ev as [| |a|k st rfv rw tm].
    + injection Ho as <-. auto.
    + injection Ho as <-. auto.
    + unfold t_on_step_begin in Ho. rewrite Hk in Ho. injection Ho as <-. auto.
    + unfold t_on_step_end in Ho. rewrite Hk in Ho. unfold lift_r in Ho. destruct (data_idx p); [|discriminate]. injection Ho as <-. auto.
  - unfold t_initialize in Ho. rewrite Hk in Ho. cbv zeta in Ho.
    match type of Ho with (_, snd ?r) = _ => destruct r as [b' r'] eqn:E end. cbn [fst snd] in Ho. injection Ho as <- Hr'. subst r'.
    apply b_plot_ok in E. subst b'. auto.
  - unfold t_render in Ho. destruct (negb (b_axis (t_b p))); [discriminate|]. destruct (t_scale_y _); [|discriminate]. injection Ho as <-. auto.
  - exfalso. apply Hr. reflexivity.
Qed.
Theorem reward_drawn : forall w tau scale p0 ops1 ops2 p, t_set_env (reward_plot w) tau scale = (p0, Ok tt) -> Forall kept (ops1 ++ PInit :: ops2) -> p_run t_op (ops1 ++ PInit :: ops2 ++ [PRender]) p0 = (p, Ok tt) ->
  let H := steps (ops1 ++ PInit :: ops2) in
  exists x y, b_lines (t_b p) = [(x, y)] /\ ring 0 w (grid w tau) (times 0 tau (length H)) x /\ ring 0 w (empty w) (map (fun s => Some (sa_reward s)) H) y.
Proof.
  intros w tau scale p0 ops1 ops2 p H0 F Hr. cbv zeta.
  replace (ops1 ++ PInit :: ops2 ++ [PRender]) with ((ops1 ++ PInit :: ops2) ++ [PRender]) in Hr by (rewrite <- app_assoc; reflexivity).
  apply p_run_ok_app in Hr. destruct Hr as [q [H1 H2]]. apply run_one in H2.
  destruct (reward_start _ _ _ _ H0) as [_ [rd [Hk [Hy _]]]].
  destruct (run_keep _ t_op kept _ (reward_y_keep rd) _ _ _ F (conj Hk Hy) H1) as [Kq Yq].
  pose proof (reward_window _ _ _ _ _ _ H0 H1) as [_ [rd' [Kq' [_ [Rx Rr]]]]]. rewrite Kq in Kq'. injection Kq' as <-.
  assert (Hs : single p0) by (unfold single; rewrite Hk; exact I).
  exists (b_x (t_b q)), (deref (t_b q) rd). split; [|auto]. apply (single_drawn rd [] q p); [|exact Yq|exact H2]. eapply run_line; eauto.
Qed.
Theorem action_drawn : forall w i disc tau scale p0 l1 l2 p, Forall a_fits (l1 ++ AOther PInit :: l2) -> t_set_env (action_plot w i disc) tau scale = (p0, Ok tt) ->
  p_run t_op (a_ops (l1 ++ AOther PInit :: l2) ++ [PRender]) p0 = (p, Ok tt) ->
  let H := actions (l1 ++ AOther PInit :: l2) in
  exists x y, b_lines (t_b p) = [(x, y)] /\ ring 0 w (grid w tau) (times 0 tau (length H)) x /\ ring 0 w (empty w) (map (shown_action i) H) y.
Proof.
  intros w i disc tau scale p0 l1 l2 p F H0 Hr. cbv zeta. apply p_run_ok_app in Hr. destruct Hr as [q [H1 H2]]. apply run_one in H2.
  destruct (action_window _ _ _ _ _ _ _ _ F H0 H1) as [[_ [ad [Hk [Hy [_ [Rx Rr]]]]]] _].
  destruct (action_start _ _ _ _ _ _ H0) as [[_ [ad0 [Hk0 _]]] _].
  assert (Hs : single p0) by (unfold single; rewrite Hk0; exact I).
  exists (b_x (t_b q)), (deref (t_b q) ad). split; [|auto]. apply (single_drawn ad [] q p); [|exact Hy|exact H2].
  unfold a_ops in H1. rewrite flat_map_app in H1. cbn [flat_map app] in H1. eapply run_line; [exact Hs|exact H1].
Qed.
