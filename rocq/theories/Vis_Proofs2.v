(** Proofs about reward and action plots, drawn lines and vertical lines. *)
From Coq Require Import Lia Lra.
From Verif Require Import PyBase PyBaseFacts Vis_Model Vis_Spec Vis_Proofs.
Local Open Scope list_scope. Local Open Scope R_scope.

(** ** Rewards *)
Record rinv (w : nat) (tau : R) (H : list sample) (p : tplot) : Prop := {
  ri_t : tinv p w tau (length H);
  ri_h : exists rd, t_kind p = KReward rd /\ (rd < length (b_heap (t_b p)))%nat
         /\ ring 0 w (grid w tau) (times 0 tau (length H)) (b_x (t_b p))
         /\ ring 0 w (empty w) (map (fun s => Some (sa_reward s)) H) (deref (t_b p) rd) }.

Lemma reward_reset : forall p w tau rd p', t_kind p = KReward rd -> t_width p = w -> t_tau p = tau -> t_reset_data p = (p', Ok tt) -> rinv w tau [] p'.
Proof.
  intros p w tau rd p' Hk Hw Ht H. unfold t_reset_data in H. rewrite Hk, Hw in H. destruct (Nat.eqb_spec w 0) as [He|He]; [discriminate|].
  injection H as <-. split.
  - split; cbn [t_with_kind t_with_b t_width t_tau t_k t_t length INR]; auto; try lia; try lra.
  - eexists. split; [reflexivity|]. cbn [t_with_kind t_with_b t_b].
    set (b0 := b_with_x _ _). change (length (b_heap (t_b p))) with (length (b_heap b0)).
    split; [rewrite heap_alloc; lia|]. split.
    + cbn [b_x b_alloc b_with_heap]. subst b0. cbn [b_x b_with_x]. rewrite Ht. apply ring_nil. apply grid_length.
    + cbn [map]. rewrite deref_alloc_new. apply ring_nil. apply repeat_length.
Qed.
Lemma rinv_step : forall w tau H p o p', rinv w tau H p -> t_op o p = (p', Ok tt) -> rinv w tau (step_upd H o) p'.
Proof.
  intros w tau H p o p' [[T1 T2 T3 T4 T5] [rd [Hk [Hrd [Rx Rr]]]]] Ho.
  destruct o as [ev| | |]; cbn [t_op step_upd] in *.
  - destruct ev as [| |a|k st rfv rw tm].
    + injection Ho as <-. split; [split; auto|]. exists rd. cbn [t_on_reset_begin t_kind t_b]. auto 10.
    + injection Ho as <-. split; [split; auto|]. exists rd. auto 10.
    + unfold t_on_step_begin in Ho. rewrite Hk in Ho. injection Ho as <-. split; [split; auto|]. exists rd. auto 10.
    + unfold t_on_step_end in Ho. rewrite Hk in Ho. unfold lift_r in Ho.
      rewrite (mod_k p (length H) w) in Ho by auto. injection Ho as <-. split.
      * split; cbn [t_with_b t_advance t_width t_tau t_k t_t]; auto.
        -- rewrite app_length; cbn. lia.
        -- rewrite app_length; cbn [length]. rewrite Nat.add_1_r, S_INR, T5, T3. ring.
      * exists rd. cbn [t_with_b t_advance t_kind t_b]. split; [exact Hk|].
        rewrite heap_put, deref_put, Nat.eqb_refl by exact Hrd. split; [exact Hrd|]. split.
        -- rewrite app_length; cbn [length]. rewrite Nat.add_1_r, times_snoc, T5.
           pose proof (ring_push _ 0 w _ _ _ (INR (length H + 0) * tau) T2 Rx) as Hp. rewrite times_length in Hp. rewrite Nat.add_0_r in Hp |- *. exact Hp.
        -- rewrite map_app; cbn [map sa_reward].
           pose proof (ring_push _ 0 w _ _ _ (Some rw) T2 Rr) as Hp. rewrite map_length in Hp. rewrite Nat.add_0_r in Hp. exact Hp.
  - unfold t_initialize in Ho. rewrite Hk in Ho. cbv zeta in Ho.
    match type of Ho with (_, snd ?r) = _ => destruct r as [b' r'] eqn:E end. cbn [fst snd] in Ho. injection Ho as <- Hr. subst r'.
    apply b_plot_ok in E. subst b'. split; [split; auto|]. exists rd. auto 10.
  - unfold t_render in Ho. destruct (negb (b_axis (t_b p))); [discriminate|]. destruct (t_scale_y _); [|discriminate]. injection Ho as <-.
    split; [split; auto|]. exists rd. auto 10.
  - eapply reward_reset; eauto.
Qed.
Lemma reward_start : forall w tau scale p, t_set_env (reward_plot w) tau scale = (p, Ok tt) -> rinv w tau [] p /\ exists rd, t_kind p = KReward rd /\ b_y (t_b p) = [rd] /\ t_scale p = scale.
Proof.
  intros w tau scale p H. unfold t_set_env in H. cbn [reward_plot t_new t_kind t_b t_t t_done t_width t_k t_resets t_viols t_marks] in H.
  unfold andthen in H. match type of H with context [t_reset_data ?q] => set (p0 := q) in * end.
  destruct (t_reset_data p0) as [p1 [u|e]] eqn:E; cbn [fst snd] in H; [|discriminate]. destruct u.
  assert (Sc : t_scale p1 = scale).
  { unfold t_reset_data in E. subst p0. cbn [t_width t_kind] in E. destruct (Nat.eqb w 0); [discriminate|]. injection E as <-. reflexivity. }
  assert (S1 : rinv w tau [] p1) by (eapply (reward_reset p0); [reflexivity|reflexivity|reflexivity|exact E]).
  destruct S1 as [[T1 T2 T3 T4 T5] [rd [Hk [Hrd [Rx Rr]]]]]. rewrite Hk in H. injection H as <-.
  split.
  - split; [split; auto|]. eexists. split; [reflexivity|]. cbn [t_with_kind t_with_b t_b b_with_y].
    cbn [b_heap b_with_y]. split; [rewrite heap_alloc; apply Nat.lt_succ_diag_r|]. split; [exact Rx|].
    change (deref (b_with_y ?b ?y) ?h) with (deref b h). rewrite deref_alloc_new. cbn [map].
    rewrite (ring_length _ _ _ _ _ _ Rx). apply ring_nil. apply repeat_length.
  - eexists. split; [reflexivity|]. split; [reflexivity|exact Sc].
Qed.
Theorem reward_window : forall w tau scale p0 ops p,
  t_set_env (reward_plot w) tau scale = (p0, Ok tt) -> p_run t_op ops p0 = (p, Ok tt) -> rinv w tau (steps ops) p.
Proof.
  intros w tau scale p0 ops p H0 Hr.
  exact (p_run_inv _ _ t_op step_upd (fun H p => rinv w tau H p) (fun h p1 o p2 => rinv_step w tau h p1 o p2) ops [] p0 p (proj1 (reward_start _ _ _ _ H0)) Hr).
Qed.

(** ** Actions *)
Record ainv (i : nat) (disc : bool) (w : nat) (tau : R) (H : list act) (p : tplot) : Prop := {
  ai_t : tinv p w tau (length H);
  ai_h : exists ad, t_kind p = KAction i disc ad /\ b_y (t_b p) = [ad] /\ (ad < length (b_heap (t_b p)))%nat
         /\ ring 0 w (grid w tau) (times 0 tau (length H)) (b_x (t_b p))
         /\ ring 0 w (empty w) (map (shown_action i) H) (deref (t_b p) ad) }.
Lemma action_reset : forall i disc p w tau ad p', t_kind p = KAction i disc ad -> t_width p = w -> t_tau p = tau -> t_reset_data p = (p', Ok tt) -> ainv i disc w tau [] p' /\ t_scale p' = t_scale p.
Proof.
  intros i disc p w tau ad p' Hk Hw Ht H. unfold t_reset_data in H. rewrite Hk, Hw in H. destruct (Nat.eqb_spec w 0) as [He|He]; [discriminate|].
  injection H as <-. split; [|reflexivity]. split.
  - split; cbn [t_with_kind t_with_b t_width t_tau t_k t_t length INR]; auto; try lia; try lra.
  - eexists. split; [reflexivity|]. split; [reflexivity|]. cbn [t_with_kind t_with_b t_b].
    change (deref (b_with_y ?b ?y) ?h) with (deref b h). cbn [b_heap b_x b_with_y].
    set (b0 := b_with_x _ _). change (length (b_heap (t_b p))) with (length (b_heap b0)).
    split; [rewrite heap_alloc; lia|]. split.
    + cbn [b_x b_alloc b_with_heap]. subst b0. cbn [b_x b_with_x]. rewrite Ht. apply ring_nil. apply grid_length.
    + cbn [map]. rewrite deref_alloc_new. apply ring_nil. apply repeat_length.
Qed.
Lemma ainv_other : forall i disc w tau H p o p', a_other o -> ainv i disc w tau H p -> t_op o p = (p', Ok tt) -> ainv i disc w tau (a_upd H (AOther o)) p' /\ t_scale p' = t_scale p.
Proof.
  intros i disc w tau H p o p' Ha [[T1 T2 T3 T4 T5] [ad [Hk [Hy [Hd [Rx Rr]]]]]] Ho.
  destruct o as [ev| | |]; cbn [t_op a_upd a_other] in *.
  - destruct ev as [| |a|k st rfv rw tm]; try contradiction; injection Ho as <-; (split; [|reflexivity]); (split; [split; auto|]); exists ad; cbn [t_on_reset_begin t_kind t_b]; auto 10.
  - unfold t_initialize in Ho. rewrite Hk in Ho. cbv zeta in Ho.
    match type of Ho with (_, snd ?r) = _ => destruct r as [b' r'] eqn:E end. cbn [fst snd] in Ho. injection Ho as <- Hr. subst r'.
    apply b_plot_ok in E. subst b'. split; [|reflexivity]. split; [split; auto|]. exists ad. auto 10.
  - unfold t_render in Ho. destruct (negb (b_axis (t_b p))); [discriminate|]. destruct (t_scale_y _); [|discriminate]. injection Ho as <-.
    split; [|reflexivity]. split; [split; auto|]. exists ad. auto 10.
  - eapply action_reset; eauto.
Qed.
Lemma ainv_step : forall i disc w tau H p a k st rf rw tm p', a <> ANone -> ainv i disc w tau H p ->
  p_run t_op [PTell (StepBegin a); PTell (StepEnd k st rf rw tm)] p = (p', Ok tt) -> ainv i disc w tau (H ++ [a]) p' /\ t_scale p' = t_scale p.
Proof.
  intros i disc w tau H p a k st rf rw tm p' Ha [[T1 T2 T3 T4 T5] [ad [Hk [Hy [Hd [Rx Rr]]]]]] Ho.
  cbn [p_run t_op] in Ho. unfold t_on_step_begin in Ho. rewrite Hk in Ho. rewrite (mod_k p (length H) w) in Ho by auto. cbn [lift_r] in Ho.
  assert (X : exists v, shown_action i a = Some v /\ p' = t_advance tm (t_with_b p (put (put_x (t_b p) (length H mod w) (t_t p)) ad (length H mod w) (Some v)))).
  { destruct a as [v|l|]; [| |contradiction].
    - destruct disc; [|discriminate]. exists v. split; [reflexivity|]. unfold andthen at 1 in Ho. cbn [fst snd done] in Ho. unfold t_on_step_end in Ho. cbn [t_with_b t_kind] in Ho. rewrite Hk in Ho. injection Ho as <-. reflexivity.
    - destruct disc; [discriminate|]. destruct (item_r l i) as [v|] eqn:Ev; [|discriminate]. cbn [lift_r] in Ho. exists v. apply item_ok in Ev. split; [cbn; congruence|].
      unfold andthen at 1 in Ho. cbn [fst snd done] in Ho. unfold t_on_step_end in Ho. cbn [t_with_b t_kind] in Ho. rewrite Hk in Ho. injection Ho as <-. reflexivity. }
  destruct X as [v [Hv ->]]. split; [|reflexivity]. split.
  - split; cbn [t_with_b t_advance t_width t_tau t_k t_t]; auto.
    + rewrite app_length; cbn. lia.
    + rewrite app_length; cbn [length]. rewrite Nat.add_1_r, S_INR, T5, T3. ring.
  - exists ad. cbn [t_with_b t_advance t_kind t_b]. split; [exact Hk|]. split; [exact Hy|].
    rewrite heap_put, deref_put, Nat.eqb_refl by exact Hd. split; [exact Hd|]. split.
    + rewrite app_length; cbn [length]. rewrite Nat.add_1_r, times_snoc, T5.
      pose proof (ring_push _ 0 w _ _ _ (INR (length H + 0) * tau) T2 Rx) as Hp. rewrite times_length in Hp. rewrite Nat.add_0_r in Hp |- *. exact Hp.
    + rewrite map_app; cbn [map]. rewrite Hv.
      pose proof (ring_push _ 0 w _ _ _ (Some v) T2 Rr) as Hp. rewrite map_length in Hp. rewrite Nat.add_0_r in Hp. exact Hp.
Qed.
Lemma action_start : forall w i disc tau scale p, t_set_env (action_plot w i disc) tau scale = (p, Ok tt) -> ainv i disc w tau [] p /\ t_scale p = scale.
Proof.
  intros w i disc tau scale p H. unfold t_set_env in H. cbn [action_plot t_new t_kind t_b t_t t_done t_width t_k t_resets t_viols t_marks] in H.
  unfold andthen in H. match type of H with context [t_reset_data ?q] => set (p0 := q) in * end.
  destruct (t_reset_data p0) as [p1 [u|e]] eqn:E; cbn [fst snd] in H; [|discriminate]. destruct u.
  destruct (action_reset i disc p0 w tau 0 p1 eq_refl eq_refl eq_refl E) as [[[T1 T2 T3 T4 T5] [ad [Hk _]]] Sc]. rewrite Hk in H.
  destruct (action_reset i disc p1 w tau ad p Hk T1 T3 H) as [I2 Sc2]. split; [exact I2|]. rewrite Sc2, Sc. reflexivity.
Qed.
Theorem action_window : forall w i disc tau scale p0 l p, Forall a_fits l ->
  t_set_env (action_plot w i disc) tau scale = (p0, Ok tt) -> p_run t_op (a_ops l) p0 = (p, Ok tt) -> ainv i disc w tau (actions l) p /\ t_scale p = scale.
Proof.
  intros w i disc tau scale p0 l p Hf H0 Hr.
  assert (G : forall H q, ainv i disc w tau H q -> t_scale q = scale -> p_run t_op (a_ops l) q = (p, Ok tt) -> ainv i disc w tau (fold_left a_upd l H) p /\ t_scale p = scale).
  { clear p0 H0 Hr. induction l as [|x l IH]; intros H q Hi Hs Hr.
    - cbn in Hr. injection Hr as <-. split; assumption.
    - inversion Hf as [|y l' Hx Hl]; subst y l'. specialize (IH Hl). cbn [a_ops flat_map] in Hr. apply p_run_ok_app in Hr. destruct Hr as [q1 [Hq1 Hr]]. cbn [fold_left].
      destruct x as [a k st rf rw tm|o].
      + destruct (ainv_step _ _ _ _ _ _ _ _ _ _ _ _ _ Hx Hi Hq1) as [I1 S1]. apply (IH _ q1 I1); [congruence|exact Hr].
      + cbn [p_run] in Hq1. unfold andthen in Hq1. destruct (t_op o q) as [q2 [u|e]] eqn:Eo; cbn [fst snd] in Hq1; [|discriminate]. destruct u. injection Hq1 as ->.
        destruct (ainv_other _ _ _ _ _ _ _ _ Hx Hi Eo) as [I1 S1]. apply (IH _ q1 I1); [congruence|exact Hr]. }
  destruct (action_start _ _ _ _ _ _ H0) as [I0 S0]. apply (G [] p0 I0 S0 Hr).
Qed.

(** ** What is drawn *)
(** After [initialize] and without [reset_data], a [render] copies the data into the lines. *)
Record drawn (i : nat) (limit : R) (nd rf : bool) (p : tplot) : Prop := {
  dr_h : exists sd rd, t_kind p = KState i limit nd rf sd rd /\ b_y (t_b p) = [sd; rd] /\ length (b_lines (t_b p)) = if rf then 2%nat else 1%nat }.
Lemma drawn_init : forall i limit nd rf w tau H p p', sinv i limit nd rf w tau H p -> t_op PInit p = (p', Ok tt) -> drawn i limit nd rf p'.
Proof.
  intros i limit nd rf w tau H p p' Hs Ho. pose proof (sinv_step _ _ _ _ _ _ _ _ _ _ Hs Ho) as [_ [sd [rd [Hk [_ [_ [_ [_ [_ [_ Hy]]]]]]]]]].
  destruct Hy as [Hy|[Hy Hl]]; [|split; exists sd, rd; auto].
  exfalso. cbn [t_op] in Ho. unfold t_initialize in Ho. destruct Hs as [_ [sd' [rd' [Hk' _]]]]. rewrite Hk' in Ho. cbv zeta in Ho.
  match type of Ho with (_, snd ?r) = _ => destruct r as [b' r'] eqn:E end. cbn [fst snd] in Ho. injection Ho as <- Hr. subst r'. cbn [t_with_b t_b] in Hy.
  unfold andthen at 1 in E. match type of E with match snd ?c with _ => _ end = _ => destruct c as [b1 [u|e]] end; cbn [fst snd] in E; [|discriminate].
  injection E as <-. discriminate.
Qed.
Lemma drawn_keep : forall i limit nd rf p o p', running o -> drawn i limit nd rf p -> t_op o p = (p', Ok tt) -> drawn i limit nd rf p'.
Proof.
  intros i limit nd rf p o p' Hr [[sd [rd [Hk [Hy Hl]]]]] Ho. split. exists sd, rd. destruct o as [ev| | |]; try contradiction; cbn [t_op] in Ho.
  - destruct ev as [| |a|k st rfv rw tm].
    + injection Ho as <-. auto.
    + injection Ho as <-. auto.
    + unfold t_on_step_begin in Ho. rewrite Hk in Ho. injection Ho as <-. auto.
    + unfold t_on_step_end in Ho. rewrite Hk in Ho. unfold lift_r in Ho. destruct (item_r st i); [|discriminate]. destruct (item_r rfv i); [|discriminate]. destruct (data_idx _); [|discriminate].
      injection Ho as <-. cbn [t_with_b t_advance t_kind t_b]. split; [exact Hk|]. destruct rf; auto.
  - unfold t_render in Ho. destruct (negb (b_axis (t_b p))); [discriminate|]. destruct (t_scale_y _); [|discriminate]. injection Ho as <-.
    cbn [t_with_b t_kind t_b b_render b_with_lines b_y b_lines]. rewrite redraw_length. auto.
Qed.
Lemma run_keep : forall P (op : pop -> P -> call P) (Q : pop -> Prop) (I : P -> Prop), (forall p o p', Q o -> I p -> op o p = (p', Ok tt) -> I p') ->
  forall ops p p', Forall Q ops -> I p -> p_run op ops p = (p', Ok tt) -> I p'.
Proof.
  intros P op Q I Hs ops. induction ops as [|o ops IH]; intros p p' Hf Hi Hr.
  - cbn in Hr. injection Hr as <-. exact Hi.
  - inversion Hf; subst. cbn [p_run] in Hr. unfold andthen in Hr. destruct (op o p) as [p1 [u|e]] eqn:E; cbn [fst snd] in Hr; [|discriminate]. destruct u.
    apply (IH p1 p'); eauto.
Qed.
Lemma run_one : forall P (op : pop -> P -> call P) o p p', p_run op [o] p = (p', Ok tt) -> op o p = (p', Ok tt).
Proof. intros P op o p p' H. cbn [p_run] in H. unfold andthen in H. destruct (op o p) as [p1 [u|e]]; cbn [fst snd] in H; [|discriminate]. destruct u. injection H as ->. reflexivity. Qed.

Theorem state_drawn : forall w i limit nd rf tau scale p0 ops1 ops2 p,
  t_set_env (state_plot w i limit nd rf) tau scale = (p0, Ok tt) -> Forall running ops2 -> p_run t_op (ops1 ++ PInit :: ops2 ++ [PRender]) p0 = (p, Ok tt) ->
  exists sd rd, t_kind p = KState i limit nd rf sd rd /\ b_lines (t_b p) = (b_x (t_b p), deref (t_b p) sd) :: if rf then [(b_x (t_b p), deref (t_b p) rd)] else [].
Proof.
  intros w i limit nd rf tau scale p0 ops1 ops2 p H0 Hf Hr.
  apply p_run_ok_app in Hr. destruct Hr as [p1 [H1 Hr]]. change (PInit :: ops2 ++ [PRender]) with ([PInit] ++ ops2 ++ [PRender]) in Hr.
  apply p_run_ok_app in Hr. destruct Hr as [p2 [H2 Hr]]. apply p_run_ok_app in Hr. destruct Hr as [p3 [H3 H4]]. apply run_one in H2. apply run_one in H4.
  pose proof (drawn_init _ _ _ _ _ _ _ _ _ (state_window _ _ _ _ _ _ _ _ _ _ H0 H1) H2) as D2.
  pose proof (run_keep _ t_op running _ (fun q o q' => drawn_keep i limit nd rf q o q') _ _ _ Hf D2 H3) as D3.
  destruct D3 as [[sd [rd [Hk [Hy Hl]]]]]. exists sd, rd. cbn [t_op] in H4. unfold t_render in H4.
  destruct (negb (b_axis (t_b p3))); [discriminate|]. destruct (t_scale_y _); [|discriminate]. injection H4 as <-.
  split; [exact Hk|]. cbn [t_with_b t_b b_render b_with_lines b_y b_lines b_x]. rewrite Hy.
  destruct (b_lines (t_b p3)) as [|l1 [|l2 [|l3 ls]]]; destruct rf; try discriminate; reflexivity.
Qed.

(** ** Reward plots after reset_figures *)
Lemma nth_error_ext_len : forall A (l m : list A), length l = length m -> (forall j, (j < length l)%nat -> nth_error l j = nth_error m j) -> l = m.
Proof.
  intros A l. induction l as [|x l IH]; intros [|y m] Hl H; try discriminate; [reflexivity|].
  pose proof (H 0%nat ltac:(cbn; lia)) as H0. cbn in H0. injection H0 as ->. f_equal. apply IH; [cbn in Hl; lia|]. intros j Hj. apply (H (S j)). cbn; lia.
Qed.
Definition stale (p : tplot) : Prop := (exists rd, t_kind p = KReward rd) /\ b_y (t_b p) = [].
Lemma stale_reset : forall p p' rd, t_kind p = KReward rd -> t_op PReset p = (p', Ok tt) -> stale p'.
Proof.
  intros p p' rd Hk H. cbn [t_op] in H. unfold t_reset_data in H. rewrite Hk in H. destruct (Nat.eqb (t_width p) 0); [discriminate|]. injection H as <-.
  split; [eexists; reflexivity|reflexivity].
Qed.
Lemma stale_keep : forall p o p', running o -> stale p -> t_op o p = (p', Ok tt) -> stale p' /\ b_lines (t_b p') = b_lines (t_b p).
Proof.
  intros p o p' Hr [[rd Hk] Hy] Ho. destruct o as [ev| | |]; try contradiction; cbn [t_op] in Ho.
  - destruct ev as [| |a|k st rfv rw tm].
    + injection Ho as <-. repeat split; eauto.
    + injection Ho as <-. repeat split; eauto.
    + unfold t_on_step_begin in Ho. rewrite Hk in Ho. injection Ho as <-. repeat split; eauto.
    + unfold t_on_step_end in Ho. rewrite Hk in Ho. unfold lift_r in Ho. destruct (data_idx p); [|discriminate]. injection Ho as <-. repeat split; eauto.
  - unfold t_render in Ho. destruct (negb (b_axis (t_b p))); [discriminate|]. destruct (t_scale_y _); [|discriminate]. injection Ho as <-.
    split; [split; [exists rd; exact Hk|exact Hy]|]. cbn [t_with_b t_kind t_b b_render b_with_lines b_lines]. rewrite Hy. destruct (b_lines (t_b p)); reflexivity.
Qed.
Theorem reward_plot_frozen : forall w tau scale p0 ops1 ops2 p1 p, t_set_env (reward_plot w) tau scale = (p0, Ok tt) -> Forall running ops2 ->
  p_run t_op (ops1 ++ [PReset; PInit]) p0 = (p1, Ok tt) -> p_run t_op ops2 p1 = (p, Ok tt) -> b_lines (t_b p) = [(grid w tau, empty w)].
Proof.
  intros w tau scale p0 ops1 ops2 p1 p H0 Hf H1 H2.
  apply p_run_ok_app in H1. destruct H1 as [q [Hq H1]]. pose proof (reward_window _ _ _ _ _ _ H0 Hq) as [_ [rd [Hk _]]].
  change [PReset; PInit] with ([PReset] ++ [PInit]) in H1. apply p_run_ok_app in H1. destruct H1 as [q1 [Hr Hi]]. apply run_one in Hr. apply run_one in Hi.
  assert (Hs : stale p1 /\ b_lines (t_b p1) = [(grid w tau, empty w)]).
  { destruct (stale_reset _ _ _ Hk Hr) as [[rd' Hk'] Hy].
    assert (Hq1 : p_run t_op (ops1 ++ [PReset]) p0 = (q1, Ok tt)) by (rewrite p_run_app, Hq; cbn [andthen fst snd p_run]; unfold andthen; cbn [fst snd]; rewrite Hr; reflexivity).
    pose proof (reward_window _ _ _ _ _ _ H0 Hq1) as [[W _ _ _ _] [rd2 [Hk2 [_ [Rx Rr]]]]].
    unfold steps, steps_from in Rx, Rr. rewrite fold_left_app in Rx, Rr. cbn [fold_left length map] in Rx, Rr.
    assert (Ex : b_x (t_b q1) = grid w tau /\ deref (t_b q1) rd2 = empty w).
    { rewrite Hk' in Hk2. injection Hk2 as ->. destruct Rx as [X1 [_ X3]]. destruct Rr as [Y1 [_ Y3]]. split; apply nth_error_ext_len.
      - rewrite X1, grid_length. reflexivity.
      - intros j Hj. apply X3; [lia|]. cbn. intros; lia.
      - rewrite Y1, empty_length. reflexivity.
      - intros j Hj. apply Y3; [lia|]. cbn. intros; lia. }
    cbn [t_op] in Hi. unfold t_initialize in Hi. rewrite Hk2 in Hi. cbv zeta in Hi.
    match type of Hi with (_, snd ?r) = _ => destruct r as [b' r'] eqn:E end. cbn [fst snd] in Hi. injection Hi as <- Hr'. subst r'.
    apply b_plot_ok in E. subst b'. split; [split; [eexists; reflexivity|exact Hy]|]. cbn [t_with_b t_b b_with_lines b_lines b_init b_x app].
    change (deref (b_init (t_b q1)) rd2) with (deref (t_b q1) rd2). destruct Ex as [-> ->]. reflexivity. }
  destruct Hs as [Hs Hl]. rewrite <- Hl.
  apply (run_keep _ t_op running (fun q => stale q /\ b_lines (t_b q) = b_lines (t_b p1)) (fun a o b Ho I E => let (S1, L1) := stale_keep a o b Ho (proj1 I) E in conj S1 (eq_trans L1 (proj2 I))) ops2 p1 p Hf (conj Hs eq_refl) H2).
Qed.

(** ** Scaled plots *)
Lemma ring_some : forall off w vals buf, (0 < w)%nat -> ring off w (empty w) (map Some vals) buf -> vals <> [] -> all_nan buf = false.
Proof.
  intros off w vals buf Hw [H1 [H2 _]] Hv. destruct vals as [|v0 vals] using rev_ind; [contradiction|clear IHvals Hv].
  specialize (H2 (length vals) (Some v0)). rewrite map_app, nth_error_app2, map_length, Nat.sub_diag in H2 by (rewrite map_length; lia). cbn [map nth_error] in H2.
  specialize (H2 eq_refl). rewrite app_length, map_length in H2. cbn [length] in H2. specialize (H2 ltac:(lia)).
  apply nth_error_In in H2. unfold all_nan. apply Bool.not_true_is_false. intro Hc. rewrite forallb_forall in Hc. specialize (Hc _ H2). discriminate.
Qed.
Lemma reward_scale_keep : forall rd p o p', running o \/ o = PInit -> (t_kind p = KReward rd /\ b_y (t_b p) = [rd] /\ t_scale p = true) -> t_op o p = (p', Ok tt) -> t_kind p' = KReward rd /\ b_y (t_b p') = [rd] /\ t_scale p' = true.
Proof.
  intros rd p o p' Hr [Hk [Hy Hs]] Ho. destruct o as [ev| | |]; cbn [t_op] in Ho.
  - destruct ev as [| |a|k st rfv rw tm].
    + injection Ho as <-. auto.
    + injection Ho as <-. auto.
    + unfold t_on_step_begin in Ho. rewrite Hk in Ho. injection Ho as <-. auto.
    + unfold t_on_step_end in Ho. rewrite Hk in Ho. unfold lift_r in Ho. destruct (data_idx p); [|discriminate]. injection Ho as <-. auto.
  - unfold t_initialize in Ho. rewrite Hk in Ho. cbv zeta in Ho.
    match type of Ho with (_, snd ?r) = _ => destruct r as [b' r'] eqn:E end. cbn [fst snd] in Ho. injection Ho as <- Hr'. subst r'.
    apply b_plot_ok in E. subst b'. auto.
  - unfold t_render in Ho. destruct (negb (b_axis (t_b p))); [discriminate|]. destruct (t_scale_y _); [|discriminate]. injection Ho as <-. auto.
  - destruct Hr as [Hr|Hr]; [contradiction|discriminate].
Qed.
Theorem scaled_reward_raises : forall w tau p0 ops p, t_set_env (reward_plot w) tau true = (p0, Ok tt) -> Forall (fun o => running o \/ o = PInit) ops -> p_run t_op ops p0 = (p, Ok tt) ->
  steps ops <> [] -> b_axis (t_b p) = true -> snd (t_op PRender p) = Err IndexError.
Proof.
  intros w tau p0 ops p H0 Hf Hr Hn Hax. pose proof (reward_window _ _ _ _ _ _ H0 Hr) as [[_ Hw _ _ _] [rd' [Hk' [_ [_ Rr]]]]].
  destruct (reward_start _ _ _ _ H0) as [_ [rd Hs]].
  destruct (run_keep _ t_op _ _ (reward_scale_keep rd) _ _ _ Hf Hs Hr) as [Hk [Hy Hsc]]. rewrite Hk in Hk'. injection Hk' as <-.
  cbn [t_op]. unfold t_render. rewrite Hax. cbn [negb]. unfold t_scale_y. cbn [t_with_b t_scale t_b b_render b_with_lines b_y]. rewrite Hsc, Hy.
  change (deref (b_with_lines (t_b p) _) rd) with (deref (t_b p) rd).
  change (deref (b_render (t_b p)) rd) with (deref (t_b p) rd).
  rewrite <- map_map in Rr. rewrite (ring_some _ _ _ _ Hw Rr); [reflexivity|]. destruct (steps ops); [contradiction|discriminate].
Qed.
Theorem scaled_action_raises : forall w i disc tau p0 l p, t_set_env (action_plot w i disc) tau true = (p0, Ok tt) -> Forall a_fits l -> p_run t_op (a_ops l) p0 = (p, Ok tt) ->
  actions l <> [] -> Forall (fun a => a <> ANone) (actions l) -> b_axis (t_b p) = true -> snd (t_op PRender p) = Err IndexError.
Proof.
  intros w i disc tau p0 l p H0 Hf Hr Hn Hnn Hax. destruct (action_window _ _ _ _ _ _ _ _ Hf H0 Hr) as [[[_ Hw _ _ _] [ad [Hk [Hy [_ [_ Rr]]]]]] Hs].
  cbn [t_op]. unfold t_render. rewrite Hax. cbn [negb]. unfold t_scale_y. cbn [t_with_b t_scale t_b b_render b_with_lines b_y]. rewrite Hs, Hy.
  change (deref (b_render (t_b p)) ad) with (deref (t_b p) ad).
  assert (E : exists vs, map (shown_action i) (actions l) = map Some vs).
  { clear - Hnn. induction (actions l) as [|a al IH]; [exists []; reflexivity|]. inversion Hnn; subst. destruct (IH H2) as [vs Hvs].
    destruct a as [v|v|]; [| |contradiction]; (eexists (_ :: vs); cbn; rewrite Hvs; reflexivity). }
  destruct E as [vs E]. rewrite E in Rr. change (deref (b_with_lines (t_b p) _) ad) with (deref (t_b p) ad).
  rewrite (ring_some _ _ _ _ Hw Rr); [reflexivity|]. destruct vs; [|discriminate]. destruct (actions l); [contradiction|discriminate].
Qed.

(** ** Vertical lines *)
Definition memory (b : bool) (p : tplot) : list R := if b then t_viols p else t_resets p.
Lemma of_kind_app : forall b l1 l2, of_kind b (l1 ++ l2) = of_kind b l1 ++ of_kind b l2.
Proof. intros b l1 l2. unfold of_kind. rewrite filter_app, map_app. reflexivity. Qed.
Lemma of_kind_pair : forall b c l, of_kind b (map (pair c) l) = if Bool.eqb c b then l else [].
Proof. intros b c l. unfold of_kind. induction l as [|x l IH]; cbn; [destruct (Bool.eqb c b); reflexivity|]. destruct (Bool.eqb c b); cbn; rewrite IH; reflexivity. Qed.
Lemma t_end_frame : forall st rf rw tm p p', t_on_step_end st rf rw tm p = (p', Ok tt) -> t_resets p' = t_resets p /\ t_viols p' = t_viols p /\ t_marks p' = t_marks p /\ t_done p' = Some tm /\ t_k p' = S (t_k p) /\ t_t p' = t_t p + t_tau p /\ t_tau p' = t_tau p.
Proof.
  intros st rf rw tm p p' H. unfold t_on_step_end, lift_r in H. destruct (t_kind p).
  - destruct (item_r st idx); [|discriminate]. destruct (item_r rf idx); [|discriminate]. destruct (data_idx _); [|discriminate]. injection H as <-. auto 10.
  - injection H as <-. auto 10.
  - destruct (data_idx p); [|discriminate]. injection H as <-. auto 10.
Qed.
Lemma t_begin_frame : forall a p p', t_on_step_begin a p = (p', Ok tt) -> t_resets p' = t_resets p /\ t_viols p' = t_viols p /\ t_marks p' = t_marks p /\ t_done p' = t_done p /\ t_k p' = t_k p /\ t_t p' = t_t p /\ t_tau p' = t_tau p.
Proof.
  intros a p p' H. unfold t_on_step_begin, lift_r in H. destruct (t_kind p).
  - injection H as <-. auto 10.
  - destruct (data_idx p); [|discriminate]. destruct a, discrete; try discriminate; try (injection H as <-; auto 10; fail).
    destruct (item_r l idx); [|discriminate]. injection H as <-. auto 10.
  - injection H as <-. auto 10.
Qed.
Lemma marks_run : forall b ops p p' k, Forall running ops -> t_k p = k -> t_t p = INR k * t_tau p -> p_run t_op ops p = (p', Ok tt) ->
  of_kind b (t_marks p') ++ memory b p' = of_kind b (t_marks p) ++ memory b p ++ of_kind b (interruptions (t_tau p) k (t_done p) ops).
Proof.
  intros b ops. induction ops as [|o ops IH]; intros p p' k Hf Hk Ht Hr.
  - cbn in Hr. injection Hr as <-. cbn. rewrite app_nil_r. reflexivity.
  - inversion Hf; subst. cbn [p_run] in Hr. unfold andthen in Hr. destruct (t_op o p) as [p1 [u|e]] eqn:E; cbn [fst snd] in Hr; [|discriminate]. destruct u.
    destruct o as [ev| | |]; try contradiction; cbn [t_op] in E; cbn [interruptions].
    + destruct ev as [| |a|k st rfv rw tm].
      * injection E as <-. match type of Hr with p_run _ _ ?q = _ => rewrite (IH q p' (t_k p) H2 eq_refl Ht Hr) end. cbn [t_on_reset_begin t_marks t_tau t_done]. rewrite of_kind_app, !app_assoc. f_equal.
        rewrite <- !app_assoc. f_equal. unfold memory. cbn [t_on_reset_begin t_viols t_resets]. rewrite Ht.
        destruct (t_done p) as [[|]|], b; cbn; rewrite ?app_nil_r; reflexivity.
      * injection E as <-. match type of Hr with p_run _ _ ?q = _ => rewrite (IH q p' (t_k p) H2 eq_refl Ht Hr) end. reflexivity.
      * destruct (t_begin_frame _ _ _ E) as [F1 [F2 [F3 [F4 [F5 [F6 F7]]]]]].
        rewrite (IH _ _ (t_k p) H2 F5 ltac:(rewrite F6, F7; exact Ht) Hr). unfold memory. rewrite F1, F2, F3, F4, F7. reflexivity.
      * destruct (t_end_frame _ _ _ _ _ _ E) as [F1 [F2 [F3 [F4 [F5 [F6 F7]]]]]].
        rewrite (IH _ _ (S (t_k p)) H2 F5 ltac:(rewrite F6, F7, Ht, S_INR; ring) Hr). unfold memory. rewrite F1, F2, F3, F4, F7. reflexivity.
    + unfold t_render in E. destruct (negb (b_axis (t_b p))); [discriminate|]. destruct (t_scale_y _); [|discriminate]. injection E as <-.
      match type of Hr with p_run _ _ ?q = _ => rewrite (IH q p' (t_k p) H2 eq_refl Ht Hr) end. cbn [t_marks t_tau t_done]. unfold memory at 1. cbn [t_viols t_resets].
      rewrite !of_kind_app, !of_kind_pair, <- !app_assoc. unfold memory. destruct b; cbn; reflexivity.
Qed.
Theorem marks_complete : forall b tau p0 ops p, t_tau p0 = tau -> t_t p0 = INR (t_k p0) * tau -> t_resets p0 = [] -> t_viols p0 = [] -> Forall running ops ->
  p_run t_op (PInit :: ops ++ [PRender]) p0 = (p, Ok tt) -> of_kind b (t_marks p) = of_kind b (interruptions tau (t_k p0) (t_done p0) ops).
Proof.
  intros b tau p0 ops p Ht Htt Hre Hvi Hf Hr. change (PInit :: ops ++ [PRender]) with ([PInit] ++ ops ++ [PRender]) in Hr.
  apply p_run_ok_app in Hr. destruct Hr as [p1 [H1 Hr]]. apply run_one in H1.
  assert (F : t_k p1 = t_k p0 /\ t_t p1 = t_t p0 /\ t_tau p1 = t_tau p0 /\ t_done p1 = t_done p0 /\ t_resets p1 = t_resets p0 /\ t_viols p1 = t_viols p0 /\ t_marks p1 = []).
  { cbn [t_op] in H1. unfold t_initialize in H1. cbv zeta in H1. injection H1 as <- _. auto 10. }
  destruct F as [F1 [F2 [F3 [F4 [F5 [F6 F7]]]]]]. apply p_run_ok_app in Hr. destruct Hr as [p2 [H2 H3]]. apply run_one in H3.
  pose proof (marks_run b ops p1 p2 (t_k p0) Hf F1 ltac:(rewrite F2, F3, Ht; exact Htt) H2) as M.
  unfold memory in M. rewrite F3, F4, F5, F6, F7, Hre, Hvi, Ht in M.
  cbn [t_op] in H3. unfold t_render in H3. destruct (negb (b_axis (t_b p2))); [discriminate|]. destruct (t_scale_y _); [|discriminate]. injection H3 as <-. cbn [t_marks].
  rewrite !of_kind_app, !of_kind_pair. destruct b; cbn [Bool.eqb app] in *; rewrite ?app_nil_r; exact M.
Qed.
