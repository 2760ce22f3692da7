(** Proofs about the plots of the dashboard. *)
From Coq Require Import Lia Lra.
From Verif Require Import PyBase PyBaseFacts Vis_Model Vis_Spec.
Local Open Scope list_scope. Local Open Scope R_scope.

(** ** Rings *)
Lemma mod_apart : forall a b w, (0 < w)%nat -> (a < b)%nat -> (b < a + w)%nat -> (a mod w <> b mod w)%nat.
Proof.
  intros a b w Hw H1 H2 He.
  pose proof (Nat.div_mod a w ltac:(lia)) as Ha. pose proof (Nat.div_mod b w ltac:(lia)) as Hb.
  rewrite He in Ha. assert (Hd : (b - a = w * (b / w - a / w))%nat) by nia.
  destruct (b / w - a / w)%nat as [|m] eqn:Em; nia.
Qed.
Lemma ring_nil : forall A off w (init : list A), length init = w -> ring off w init [] init.
Proof.
  intros A off w init H. split; [exact H|]. split.
  - intros i v Hi. destruct i; discriminate.
  - reflexivity.
Qed.
Lemma ring_push : forall A off w (init vals buf : list A) v, (0 < w)%nat -> ring off w init vals buf -> ring off w init (vals ++ [v]) (list_set ((length vals + off) mod w) v buf).
Proof.
  intros A off w init vals buf v Hw [H1 [H2 H3]]. split; [rewrite list_set_length; exact H1|]. split.
  - intros i u Hi Hl. rewrite app_length in Hl; cbn in Hl. rewrite list_set_nth_error.
    destruct (Nat.eq_dec i (length vals)) as [->|Hne].
    + rewrite Nat.eqb_refl. rewrite nth_error_app2 in Hi by lia. rewrite Nat.sub_diag in Hi. cbn in Hi. injection Hi as <-.
      rewrite H1. rewrite (proj2 (Nat.ltb_lt _ _)); [reflexivity|]. apply Nat.mod_upper_bound; lia.
    + assert (Hlt : (i < length vals)%nat).
      { assert (i < length (vals ++ [v]))%nat by (apply nth_error_Some; rewrite Hi; discriminate). rewrite app_length in H; cbn in H. lia. }
      rewrite nth_error_app1 in Hi by exact Hlt.
      rewrite (proj2 (Nat.eqb_neq _ _)); [apply H2; [exact Hi|lia]|].
      intro He. symmetry in He. revert He. apply mod_apart; lia.
  - intros j Hj Hn. rewrite app_length in Hn; cbn in Hn. rewrite list_set_nth_error.
    rewrite (proj2 (Nat.eqb_neq _ _)).
    + apply H3; [exact Hj|]. intros i Hi Hw2. destruct (Nat.eq_dec (i + w) (length vals)) as [He|Hne].
      * specialize (Hn (length vals) ltac:(lia) ltac:(lia)). intro Hc. apply Hn. rewrite <- He.
        replace (i + w + off)%nat with (i + off + 1 * w)%nat by lia. rewrite Nat.mod_add by lia. exact Hc.
      * apply Hn; lia.
    + apply Hn; lia.
Qed.
Lemma times_snoc : forall off tau n, times off tau (S n) = times off tau n ++ [INR (n + off) * tau].
Proof. intros off tau n. unfold times. rewrite seq_S, map_app. reflexivity. Qed.
Lemma times_length : forall off tau n, length (times off tau n) = n.
Proof. intros. unfold times. rewrite map_length, seq_length. reflexivity. Qed.
Lemma grid_length : forall w tau, length (grid w tau) = w.
Proof. intros. unfold grid. rewrite map_length, seq_length. reflexivity. Qed.
Lemma empty_length : forall w, length (empty w) = w.
Proof. intros. apply repeat_length. Qed.
Lemma ring_length : forall A off w (init vals buf : list A), ring off w init vals buf -> length buf = w.
Proof. intros A off w init vals buf H. apply H. Qed.

(** ** The heap of arrays *)
Lemma deref_put : forall b h i v g, (h < length (b_heap b))%nat -> deref (put b h i v) g = if Nat.eqb h g then list_set i v (deref b h) else deref b g.
Proof.
  intros b h i v g Hh. unfold put, b_write, deref, b_with_heap; cbn [b_heap].
  destruct (Nat.eqb_spec h g) as [<-|Hne].
  - apply nth_error_nth with (d := []). rewrite list_set_nth_error, Nat.eqb_refl. rewrite (proj2 (Nat.ltb_lt _ _) Hh). reflexivity.
  - assert (E : nth_error (list_set h (list_set i v (nth h (b_heap b) [])) (b_heap b)) g = nth_error (b_heap b) g).
    { rewrite list_set_nth_error. rewrite (proj2 (Nat.eqb_neq _ _) Hne). reflexivity. }
    destruct (nth_error (b_heap b) g) as [a|] eqn:Eg.
    + rewrite (nth_error_nth _ _ [] E). rewrite (nth_error_nth _ _ [] Eg). reflexivity.
    + apply nth_error_None in E. apply nth_error_None in Eg. rewrite !nth_overflow; auto.
Qed.
Lemma heap_put : forall b h i v, length (b_heap (put b h i v)) = length (b_heap b).
Proof. intros. unfold put, b_write; cbn. apply list_set_length. Qed.
Lemma heap_alloc : forall b a, length (b_heap (b_alloc b a)) = S (length (b_heap b)).
Proof. intros. unfold b_alloc; cbn. rewrite app_length; cbn. lia. Qed.
Lemma deref_alloc_new : forall b a, deref (b_alloc b a) (length (b_heap b)) = a.
Proof. intros b a. unfold deref, b_alloc; cbn. rewrite app_nth2 by lia. rewrite Nat.sub_diag. reflexivity. Qed.
Lemma deref_alloc_old : forall b a h, (h < length (b_heap b))%nat -> deref (b_alloc b a) h = deref b h.
Proof. intros b a h H. unfold deref, b_alloc; cbn. apply app_nth1; exact H. Qed.

(** ** Runs *)
Lemma p_run_app : forall P (op : pop -> P -> call P) l1 l2 p, p_run op (l1 ++ l2) p = andthen (p_run op l1 p) (p_run op l2).
Proof.
  intros P op l1. induction l1 as [|o l1 IH]; intros l2 p; cbn [p_run app].
  - reflexivity.
  - unfold andthen at 1 3. destruct (op o p) as [p' [u|e]]; cbn [fst snd].
    + rewrite IH. reflexivity.
    + reflexivity.
Qed.
Lemma p_run_ok_app : forall P (op : pop -> P -> call P) l1 l2 p p', p_run op (l1 ++ l2) p = (p', Ok tt) -> exists p1, p_run op l1 p = (p1, Ok tt) /\ p_run op l2 p1 = (p', Ok tt).
Proof.
  intros P op l1 l2 p p' H. rewrite p_run_app in H. unfold andthen in H. destruct (p_run op l1 p) as [p1 [u|e]]; cbn [fst snd] in H; [|discriminate].
  exists p1. destruct u. split; [reflexivity|exact H].
Qed.
(** An invariant of successful runs that may depend on the history. *)
Lemma p_run_inv : forall P H (op : pop -> P -> call P) (upd : H -> pop -> H) (I : H -> P -> Prop),
  (forall h p o p', I h p -> op o p = (p', Ok tt) -> I (upd h o) p') ->
  forall ops h p p', I h p -> p_run op ops p = (p', Ok tt) -> I (fold_left upd ops h) p'.
Proof.
  intros P H op upd I Hs ops. induction ops as [|o ops IH]; intros h p p' Hi Hr.
  - cbn in Hr. injection Hr as <-. exact Hi.
  - cbn [p_run] in Hr. unfold andthen in Hr. destruct (op o p) as [p1 [u|e]] eqn:E; cbn [fst snd] in Hr; [|discriminate].
    destruct u. cbn [fold_left]. apply (IH _ _ _ (Hs _ _ _ _ Hi E) Hr).
Qed.

(** ** The three time plots *)
(** What a time plot holds: the arrays, when they are written, and the clock. *)
Record tinv (p : tplot) (w : nat) (tau : R) (n : nat) : Prop := {
  ti_w : t_width p = w; ti_pos : (0 < w)%nat; ti_tau : t_tau p = tau; ti_k : t_k p = n; ti_t : t_t p = INR n * tau }.

Record sinv (i : nat) (limit : R) (nd rf : bool) (w : nat) (tau : R) (H : list sample) (p : tplot) : Prop := {
  si_t : tinv p w tau (length H);
  si_h : exists sd rd, t_kind p = KState i limit nd rf sd rd /\ sd <> rd /\ (sd < length (b_heap (t_b p)))%nat /\ (rd < length (b_heap (t_b p)))%nat
         /\ ring 1 w (grid w tau) (times 1 tau (length H)) (b_x (t_b p))
         /\ ring 1 w (empty w) (map (fun s => Some (physical limit nd (state_at i (sa_state s)))) H) (deref (t_b p) sd)
         /\ ring 1 w (empty w) (if rf then map (fun s => Some (physical limit nd (state_at i (sa_ref s)))) H else []) (deref (t_b p) rd)
         /\ (b_y (t_b p) = [] \/ (b_y (t_b p) = [sd; rd] /\ length (b_lines (t_b p)) = if rf then 2%nat else 1%nat)) }.

Definition step_upd (acc : list sample) (o : pop) : list sample :=
  match o with
  | PReset => []
  | PTell (StepEnd _ st rf rw tm) => acc ++ [{| sa_state := st; sa_ref := rf; sa_reward := rw; sa_term := tm |}]
  | _ => acc
  end.

Lemma redraw_length : forall b l ys, length (redraw b l ys) = length l.
Proof. intros b l. induction l as [|x l IH]; intros [|y ys]; cbn; auto. Qed.

Lemma item_ok : forall l i v, item_r l i = Ok v -> v = state_at i l.
Proof. intros l i v H. unfold item_r in H. destruct (nth_error l i) eqn:E; [|discriminate]. injection H as <-. unfold state_at. symmetry. apply nth_error_nth. exact E. Qed.

Lemma state_reset : forall i limit nd rf p w tau sd rd p', t_kind p = KState i limit nd rf sd rd -> t_width p = w -> t_tau p = tau -> t_reset_data p = (p', Ok tt) -> sinv i limit nd rf w tau [] p'.
Proof.
  intros i limit nd rf p w tau sd rd p' Hk Hw Ht H. unfold t_reset_data in H. rewrite Hk, Hw in H. destruct (Nat.eqb_spec w 0) as [He|He]; [discriminate|].
  injection H as <-. split.
  - split; cbn [t_with_kind t_with_b t_width t_tau t_k t_t length INR]; auto; try lia; try lra.
  - eexists _, _. split; [reflexivity|]. cbn [t_with_kind t_with_b t_b].
    set (b0 := b_with_x _ _). change (length (b_heap (t_b p))) with (length (b_heap b0)). assert (E : length (b_heap (b_alloc b0 (repeat None w))) = S (length (b_heap b0))) by apply heap_alloc.
    split; [lia|]. split; [|split; [|split; [|split; [|split]]]].
    + rewrite !heap_alloc. lia.
    + rewrite !heap_alloc. lia.
    + cbn [b_x b_alloc b_with_heap]. subst b0. cbn [b_x b_with_x]. rewrite Ht. apply ring_nil. apply grid_length.
    + cbn [map]. rewrite deref_alloc_old by lia. rewrite deref_alloc_new. apply ring_nil. apply repeat_length.
    + rewrite <- E. rewrite deref_alloc_new. destruct rf; cbn [map]; apply ring_nil; apply repeat_length.
    + left. reflexivity.
Qed.

Lemma mod_k : forall p n w, t_width p = w -> (0 < w)%nat -> t_k p = n -> data_idx p = Ok (n mod w)%nat.
Proof. intros p n w H1 H2 H3. unfold data_idx. rewrite H1, H3. destruct (Nat.eqb_spec w 0); [lia|reflexivity]. Qed.

Lemma b_plot_ok : forall b x y b', b_plot b x y = (b', Ok tt) -> b' = b_with_lines b (b_lines b ++ [(x, y)]).
Proof. intros b x y b' H. unfold b_plot in H. destruct (Nat.eqb _ _); [injection H as <-; reflexivity|discriminate]. Qed.

Lemma sinv_step : forall i limit nd rf w tau H p o p', sinv i limit nd rf w tau H p -> t_op o p = (p', Ok tt) -> sinv i limit nd rf w tau (step_upd H o) p'.
Proof.
  intros i limit nd rf w tau H p o p' [[T1 T2 T3 T4 T5] [sd [rd [Hk [Hne [Hsd [Hrd [Rx [Rs [Rr Hy]]]]]]]]]] Ho.
  destruct o as [ev| | |]; cbn [t_op step_upd] in *.
  - destruct ev as [| |a|k st rfv rw tm].
    + injection Ho as <-. split; [split; auto|]. exists sd, rd. cbn [t_on_reset_begin t_kind t_b]. auto 10.
    + injection Ho as <-. split; [split; auto|]. exists sd, rd. auto 10.
    + unfold t_on_step_begin in Ho. rewrite Hk in Ho. injection Ho as <-. split; [split; auto|]. exists sd, rd. auto 10.
    + unfold t_on_step_end in Ho. rewrite Hk in Ho. unfold lift_r in Ho.
      destruct (item_r st i) as [s|] eqn:Es; [|discriminate]. destruct (item_r rfv i) as [r|] eqn:Er; [|discriminate].
      rewrite (mod_k (t_advance tm p) (S (length H)) w) in Ho by (cbn [t_advance t_width t_k]; auto; lia).
      apply item_ok in Es. apply item_ok in Er. injection Ho as <-.
      assert (Ei : (S (length H) mod w = (length H + 1) mod w)%nat) by (f_equal; lia).
      assert (Ex : forall b, b_heap (put_x b (S (length H) mod w) (t_t (t_advance tm p))) = b_heap b) by reflexivity.
      set (v := if nd then s * limit else s). set (u := if nd then r * limit else r).
      set (b1 := put_x _ _ _). set (b2 := put b1 _ _ _).
      split.
      * cbn [t_with_b t_advance]. split; cbn [t_with_b t_advance t_width t_tau t_k t_t]; auto.
        -- rewrite app_length; cbn. lia.
        -- rewrite app_length; cbn [length]. rewrite Nat.add_1_r, S_INR, T5, T3. ring.
      * exists sd, rd. cbn [t_with_b t_advance t_kind t_b]. split; [exact Hk|]. split; [exact Hne|].
        assert (L2 : length (b_heap b2) = length (b_heap (t_b p))) by (subst b2; rewrite heap_put; reflexivity).
        assert (L3 : length (b_heap (if rf then put b2 rd (S (length H) mod w) (Some u) else b2)) = length (b_heap (t_b p))) by (destruct rf; [rewrite heap_put|]; exact L2).
        rewrite L3. split; [exact Hsd|]. split; [exact Hrd|].
        assert (X3 : b_x (if rf then put b2 rd (S (length H) mod w) (Some u) else b2) = list_set (S (length H) mod w) (t_t p + t_tau p) (b_x (t_b p))) by (destruct rf; reflexivity).
        rewrite X3, app_length; cbn [length]. rewrite Nat.add_1_r, times_snoc. rewrite T5, T3.
        replace (INR (length H) * tau + tau) with (INR (length H + 1) * tau) by (rewrite Nat.add_1_r, S_INR; ring).
        assert (Dsd : deref b2 sd = list_set (S (length H) mod w) (Some v) (deref (t_b p) sd)).
        { subst b2. rewrite deref_put by (exact Hsd). rewrite Nat.eqb_refl. reflexivity. }
        assert (Drd : deref b2 rd = deref (t_b p) rd).
        { subst b2. rewrite deref_put by (exact Hsd). rewrite (proj2 (Nat.eqb_neq _ _) Hne). reflexivity. }
        split; [|split; [|split]].
        -- rewrite Ei. pose proof (ring_push _ 1 w _ _ _ (INR (length H + 1) * tau) T2 Rx) as Hp. rewrite times_length in Hp. exact Hp.
        -- rewrite map_app; cbn [map sa_state].
           assert (D : deref (if rf then put b2 rd (S (length H) mod w) (Some u) else b2) sd = list_set (S (length H) mod w) (Some v) (deref (t_b p) sd)).
           { destruct rf; [|exact Dsd]. rewrite deref_put by lia. rewrite (proj2 (Nat.eqb_neq _ _)) by auto. exact Dsd. }
           rewrite D, Ei. pose proof (ring_push _ 1 w _ _ _ (Some v) T2 Rs) as Hp. rewrite map_length in Hp.
           subst v. rewrite Es in Hp |- *. unfold physical. unfold physical in Hp. exact Hp.
        -- destruct rf; [|rewrite Drd; exact Rr]. rewrite deref_put by lia. rewrite Nat.eqb_refl, Drd, map_app, Ei; cbn [map sa_ref].
           pose proof (ring_push _ 1 w _ _ _ (Some u) T2 Rr) as Hp. rewrite map_length in Hp. subst u. rewrite Er in Hp |- *. exact Hp.
        -- destruct Hy as [Hy|[Hy Hl]]; [left|right; split]; destruct rf; auto.
  - unfold t_initialize in Ho. rewrite Hk in Ho.
    assert (L : length (deref (t_b p) sd) = w /\ length (deref (t_b p) rd) = w /\ length (b_x (t_b p)) = w).
    { split; [apply (ring_length _ _ _ _ _ _ Rs)|split; [apply (ring_length _ _ _ _ _ _ Rr)|apply (ring_length _ _ _ _ _ _ Rx)]]. }
    destruct L as [L1 [L2 L3]].
    assert (E : (andthen (andthen (b_plot (b_init (t_b p)) (b_x (b_init (t_b p))) (deref (b_init (t_b p)) sd)) (fun b => if rf then b_plot b (b_x b) (deref b rd) else done b)) (fun b => done (b_with_y b [sd; rd])))
      = (b_with_y (b_with_lines (b_init (t_b p)) (if rf then [(b_x (t_b p), deref (t_b p) sd); (b_x (t_b p), deref (t_b p) rd)] else [(b_x (t_b p), deref (t_b p) sd)])) [sd; rd], Ok tt)).
    { unfold b_plot at 1. cbn [b_init b_x]. replace (deref (b_init (t_b p)) sd) with (deref (t_b p) sd) by reflexivity. rewrite L1, L3, Nat.eqb_refl. unfold andthen at 2. cbn [fst snd done].
      destruct rf; [|reflexivity]. unfold b_plot. cbn [b_x b_with_lines b_init]. match goal with |- context [length (deref ?b rd)] => replace (deref b rd) with (deref (t_b p) rd) by reflexivity end.
      rewrite L2, L3, Nat.eqb_refl. reflexivity. }
    cbv zeta in Ho. rewrite E in Ho. injection Ho as <-.
    split; [split; auto|]. exists sd, rd. cbn [t_with_b t_kind t_b fst b_with_y b_with_lines b_init b_heap b_x b_y b_lines].
    split; [reflexivity|]. split; [exact Hne|]. split; [exact Hsd|]. split; [exact Hrd|]. split; [exact Rx|]. split; [exact Rs|]. split; [exact Rr|].
    right. split; [reflexivity|]. destruct rf; reflexivity.
  - unfold t_render in Ho. destruct (negb (b_axis (t_b p))); [discriminate|]. destruct (t_scale_y _); [|discriminate]. injection Ho as <-.
    split; [split; auto|]. exists sd, rd. cbn [t_with_b t_kind t_b b_render b_with_lines b_heap b_x b_y b_lines]. rewrite redraw_length. auto 10.
  - eapply state_reset; eauto.
Qed.

Lemma state_start : forall w i limit nd rf tau scale p, t_set_env (state_plot w i limit nd rf) tau scale = (p, Ok tt) -> sinv i limit nd rf w tau [] p.
Proof.
  intros w i limit nd rf tau scale p H. unfold t_set_env in H. cbn [state_plot t_new t_kind t_b t_t t_done t_width t_k t_resets t_viols t_marks] in H.
  unfold andthen in H. match type of H with context [t_reset_data ?q] => set (p0 := q) in * end.
  destruct (t_reset_data p0) as [p1 [u|e]] eqn:E; cbn [fst snd] in H; [|discriminate]. destruct u.
  assert (S1 : sinv i limit nd rf w tau [] p1) by (eapply (state_reset i limit nd rf p0); [reflexivity|reflexivity|reflexivity|exact E]).
  destruct S1 as [[T1 T2 T3 T4 T5] [sd [rd [Hk _]]]]. rewrite Hk in H.
  eapply state_reset; [exact Hk|exact T1|exact T3|exact H].
Qed.

Theorem state_window : forall w i limit nd rf tau scale p0 ops p,
  t_set_env (state_plot w i limit nd rf) tau scale = (p0, Ok tt) -> p_run t_op ops p0 = (p, Ok tt) -> sinv i limit nd rf w tau (steps ops) p.
Proof.
  intros w i limit nd rf tau scale p0 ops p H0 Hr.
  exact (p_run_inv _ _ t_op step_upd (fun H p => sinv i limit nd rf w tau H p) (fun h p1 o p2 => sinv_step i limit nd rf w tau h p1 o p2) ops [] p0 p (state_start _ _ _ _ _ _ _ _ H0) Hr).
Qed.
