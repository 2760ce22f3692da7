(** Proofs about whole dashboards, the console printer and the reference plotter. *)
From Coq Require Import Lia Lra.
From Verif Require Import PyBase PyBaseFacts Vis_Model Vis_Spec Vis_Proofs Vis_Proofs2 Vis_Proofs3.
Local Open Scope list_scope. Local Open Scope R_scope.

(** ** Loops over plots *)
Lemma each_ok : forall P (f : P -> call P) (I J : P -> Prop), (forall p, I p -> exists p', f p = (p', Ok tt) /\ J p') ->
  forall l, Forall I l -> exists l', each_plot f l = (l', Ok tt) /\ Forall J l' /\ length l' = length l.
Proof.
  intros P f I J H l. induction l as [|p l IH]; intros Hf; [exists []; auto|]. inversion Hf; subst. destruct (H p H2) as [p' [E Hj]]. destruct (IH H3) as [l' [E' [Hl Hn]]].
  exists (p' :: l'). cbn [each_plot]. rewrite E, E'. split; [reflexivity|]. split; [constructor; auto|]. cbn. lia.
Qed.
Lemma all_ok : forall ft fe fs (It : tplot -> Prop) (Ie : eplot -> Prop) (Is : splot -> Prop) (Jt : tplot -> Prop) (Je : eplot -> Prop) (Js : splot -> Prop) d,
  Forall It (d_time d) -> Forall Ie (d_ep d) -> Forall Is (d_step d) ->
  (forall p, It p -> exists p', ft p = (p', Ok tt) /\ Jt p') -> (forall p, Ie p -> exists p', fe p = (p', Ok tt) /\ Je p') -> (forall p, Is p -> exists p', fs p = (p', Ok tt) /\ Js p') ->
  exists t e s, all_plots ft fe fs d = (d_with d t e s, Ok tt) /\ Forall Jt t /\ Forall Je e /\ Forall Js s /\ length t = length (d_time d) /\ length e = length (d_ep d) /\ length s = length (d_step d).
Proof.
  intros ft fe fs It Ie Is Jt Je Js d F1 F2 F3 Ht He Hs. unfold all_plots.
  destruct (each_ok _ _ _ _ Ht _ F1) as [t [E1 [G1 L1]]]. destruct (each_ok _ _ _ _ He _ F2) as [e [E2 [G2 L2]]]. destruct (each_ok _ _ _ _ Hs _ F3) as [s [E3 [G3 L3]]].
  rewrite E1, E2, E3. exists t, e, s. auto 10.
Qed.
Lemma all_frame : forall ft fe fs d d' r, all_plots ft fe fs d = (d', r) -> exists t e s, d' = d_with d t e s.
Proof.
  intros ft fe fs d d' r H. unfold all_plots in H. destruct (each_plot ft (d_time d)) as [t [u|x]]; [|injection H as <- _; eauto].
  destruct (each_plot fe (d_ep d)) as [e [v|x]]; [|injection H as <- _; eauto]. destruct (each_plot fs (d_step d)) as [s q]. injection H as <- _. eauto.
Qed.

(** ** Healthy time plots *)
Section Healthy.
Variables (n : nat) (disc : bool) (m : nat).
Definition alen (p : tplot) (h : nat) : Prop := length (deref (t_b p) h) = t_width p.
Record t_ok (p : tplot) : Prop := {
  tk_w : (0 < t_width p)%nat; tk_x : length (b_x (t_b p)) = t_width p; tk_s : t_scale p = false;
  tk_k : match t_kind p with
         | KState i _ _ _ sd rd => (i < n)%nat /\ alen p sd /\ alen p rd
         | KAction i d ad => d = disc /\ (disc = true \/ (i < m)%nat) /\ alen p ad
         | KReward rd => alen p rd
         end;
  tk_y : Forall (alen p) (b_y (t_b p)); tk_l : forallb drawable (b_lines (t_b p)) = true }.
Definition same_frame (p p' : tplot) : Prop := t_width p' = t_width p /\ t_scale p' = t_scale p /\ t_kind p' = t_kind p /\ b_y (t_b p') = b_y (t_b p) /\ b_lines (t_b p') = b_lines (t_b p) /\ b_axis (t_b p') = b_axis (t_b p)
  /\ length (b_x (t_b p')) = length (b_x (t_b p)) /\ (forall h, length (deref (t_b p') h) = length (deref (t_b p) h)).
Lemma frame_ok : forall p p', t_ok p -> same_frame p p' -> t_ok p' /\ b_axis (t_b p') = b_axis (t_b p).
Proof.
  intros p p' [W X S K Y L] [F1 [F2 [F3 [F4 [F5 [F6 [F7 F8]]]]]]]. split; [|exact F6].
  assert (A : forall h, alen p h -> alen p' h) by (intros h; unfold alen; rewrite F8, F1; auto).
  split.
  - rewrite F1. exact W.
  - rewrite F7, F1. exact X.
  - rewrite F2. exact S.
  - rewrite F3. destruct (t_kind p); intuition.
  - rewrite F4. eapply Forall_impl; [|exact Y]. exact A.
  - rewrite F5. exact L.
Qed.
Lemma put_len : forall b h i v g, length (deref b h) <> 0%nat -> length (deref (put b h i v) g) = length (deref b g).
Proof.
  intros b h i v g Hh. assert (H : (h < length (b_heap b))%nat).
  { destruct (Nat.lt_ge_cases h (length (b_heap b))) as [|Hc]; [assumption|]. exfalso. apply Hh. unfold deref. rewrite nth_overflow by exact Hc. reflexivity. }
  rewrite deref_put by exact H. destruct (Nat.eqb_spec h g) as [->|]; [apply list_set_length|reflexivity].
Qed.
Lemma idx_ok : forall p, (0 < t_width p)%nat -> exists i, data_idx p = Ok i.
Proof. intros p H. unfold data_idx. destruct (Nat.eqb_spec (t_width p) 0); [lia|eauto]. Qed.
Lemma item_in : forall l i, (i < length l)%nat -> exists v, item_r l i = Ok v.
Proof. intros l i H. unfold item_r. destruct (nth_error l i) eqn:E; [eauto|]. apply nth_error_None in E. lia. Qed.

Lemma ok_reset_begin : forall p, t_ok p -> t_ok (t_on_reset_begin p) /\ b_axis (t_b (t_on_reset_begin p)) = b_axis (t_b p).
Proof. intros p H. apply frame_ok; [exact H|]. repeat split. Qed.
Lemma ok_step_begin : forall a p, t_ok p -> fits n disc m (StepBegin a) -> exists p', t_on_step_begin a p = (p', Ok tt) /\ t_ok p' /\ b_axis (t_b p') = b_axis (t_b p).
Proof.
  intros a p H Hf. pose proof H as [W X S K Y L]. unfold t_on_step_begin. destruct (t_kind p) as [|i d ad|] eqn:Ek; try (exists p; auto; fail).
  destruct K as [-> [Hi Ha]]. destruct (idx_ok p W) as [j Ej]. rewrite Ej. cbn [lift_r].
  assert (G : forall v, same_frame p (t_with_b (t_with_b p (put_x (t_b p) j (t_t p))) (put (t_b (t_with_b p (put_x (t_b p) j (t_t p)))) ad j v))).
  { intros v. repeat split; cbn [t_with_b t_b]; auto.
    - unfold put. cbn [b_write b_with_heap b_x put_x b_with_x]. apply list_set_length.
    - intros h. rewrite put_len; [reflexivity|]. change (deref (put_x (t_b p) j (t_t p)) ad) with (deref (t_b p) ad). rewrite Ha. lia. }
  destruct a as [v|l|]; cbn [fits] in Hf.
  - rewrite Hf. eexists. split; [reflexivity|]. apply frame_ok; [exact H|apply G].
  - destruct Hf as [Hd Hl]. rewrite Hd. destruct Hi as [Hi|Hi]; [congruence|]. destruct (item_in l i ltac:(lia)) as [v Ev]. rewrite Ev. cbn [lift_r]. eexists. split; [reflexivity|]. apply frame_ok; [exact H|apply G].
  - eexists. split; [reflexivity|]. apply frame_ok; [exact H|]. repeat split; auto. cbn. apply list_set_length.
Qed.
Lemma ok_step_end : forall st rf rw tm p, t_ok p -> length st = n -> length rf = n -> exists p', t_on_step_end st rf rw tm p = (p', Ok tt) /\ t_ok p' /\ b_axis (t_b p') = b_axis (t_b p).
Proof.
  intros st rf rw tm p H Hs Hr. pose proof H as [W X S K Y L]. unfold t_on_step_end. destruct (t_kind p) as [i limit nd re sd rd|i d ad|rd] eqn:Ek.
  - destruct K as [Hi [Hsd Hrd]]. destruct (item_in st i ltac:(lia)) as [s Es]. destruct (item_in rf i ltac:(lia)) as [r Er]. rewrite Es, Er. cbn [lift_r].
    destruct (idx_ok (t_advance tm p) W) as [j Ej]. rewrite Ej. cbn [lift_r]. eexists. split; [reflexivity|]. apply frame_ok; [exact H|].
    assert (Ls : forall x v, length (deref (put_x (t_b p) x v) sd) <> 0%nat) by (intros x v; change (deref (put_x (t_b p) x v) sd) with (deref (t_b p) sd); rewrite Hsd; lia).
    repeat split; auto; cbn [t_with_b t_advance t_b].
    + destruct re; reflexivity.
    + destruct re; reflexivity.
    + destruct re; reflexivity.
    + destruct re; unfold put; cbn [b_write b_with_heap b_x put_x b_with_x]; apply list_set_length.
    + intros h. destruct re.
      * rewrite put_len; [rewrite put_len by apply Ls; reflexivity|]. rewrite put_len by apply Ls. change (deref (put_x (t_b p) j _) rd) with (deref (t_b p) rd). rewrite Hrd. lia.
      * rewrite put_len by apply Ls. reflexivity.
  - eexists. split; [reflexivity|]. apply frame_ok; [exact H|]. repeat split; auto.
  - destruct (idx_ok p W) as [j Ej]. rewrite Ej. cbn [lift_r]. eexists. split; [reflexivity|]. apply frame_ok; [exact H|]. repeat split; auto; cbn [t_with_b t_advance t_b].
    + unfold put. cbn [b_write b_with_heap b_x put_x b_with_x]. apply list_set_length.
    + intros h. rewrite put_len; [reflexivity|]. change (deref (put_x (t_b p) j (t_t p)) rd) with (deref (t_b p) rd). rewrite K. lia.
Qed.
Lemma ok_reset_data : forall p, (0 < t_width p)%nat -> t_scale p = false -> forallb drawable (b_lines (t_b p)) = true ->
  match t_kind p with KState i _ _ _ _ _ => (i < n)%nat | KAction i d _ => d = disc /\ (disc = true \/ (i < m)%nat) | KReward _ => True end ->
  exists p', t_reset_data p = (p', Ok tt) /\ t_ok p' /\ (forall rd, t_kind p = KReward rd -> exists rd', t_kind p' = KReward rd') /\ t_width p' = t_width p.
Proof.
  intros p W S L K. unfold t_reset_data. destruct (Nat.eqb_spec (t_width p) 0); [lia|].
  set (b0 := b_with_x (b_reset_data (t_b p)) (grid (t_width p) (t_tau p))).
  eexists. split; [reflexivity|]. destruct (t_kind p) as [i limit nd re sd rd|i d ad|rd]; (split; [|split; [intros r Hr; first [discriminate|eexists; reflexivity]|reflexivity]]); split; cbn [t_with_kind t_with_b t_width t_scale t_kind t_b]; auto.
  - cbn. apply grid_length.
  - split; [exact K|]. split; unfold alen; cbn [t_with_kind t_with_b t_width t_b].
    + rewrite deref_alloc_old by (rewrite heap_alloc; lia). rewrite deref_alloc_new. apply repeat_length.
    + rewrite <- (heap_alloc b0 (repeat None (t_width p))). rewrite deref_alloc_new. apply repeat_length.
  - constructor.
  - cbn. apply grid_length.
  - destruct K as [K1 K2]. split; [exact K1|]. split; [exact K2|]. unfold alen; cbn [t_with_kind t_with_b t_width t_b].
    change (deref (b_with_y ?b ?y) ?h) with (deref b h). rewrite deref_alloc_new. apply repeat_length.
  - cbn [b_with_y b_y]. constructor; [|constructor]. unfold alen; cbn [t_with_kind t_with_b t_width t_b].
    change (deref (b_with_y ?b ?y) ?h) with (deref b h). rewrite deref_alloc_new. apply repeat_length.
  - cbn. apply grid_length.
  - unfold alen; cbn [t_with_kind t_with_b t_width t_b]. rewrite deref_alloc_new. apply repeat_length.
  - constructor.
Qed.
Lemma plot_ok : forall b x y, length x = length y -> b_plot b x y = (b_with_lines b (b_lines b ++ [(x, y)]), Ok tt).
Proof. intros b x y H. unfold b_plot. rewrite H, Nat.eqb_refl. reflexivity. Qed.
Lemma drawable_eq : forall x y, length x = length y -> drawable (x, y) = true.
Proof. intros x y H. unfold drawable. cbn [fst snd]. rewrite H, Nat.eqb_refl. reflexivity. Qed.
Lemma ok_initialize : forall p, t_ok p -> exists p', t_initialize p = (p', Ok tt) /\ t_ok p' /\ b_axis (t_b p') = true.
Proof.
  intros p [W X S K Y L]. unfold t_initialize. cbv zeta. destruct (t_kind p) as [i limit nd re sd rd|i d ad|rd] eqn:Ek.
  - destruct K as [Hi [Hsd Hrd]]. unfold alen in Hsd, Hrd.
    rewrite (plot_ok (b_init (t_b p)) (b_x (b_init (t_b p))) (deref (b_init (t_b p)) sd)) by (cbn [b_init b_x]; change (deref (b_init (t_b p)) sd) with (deref (t_b p) sd); lia).
    unfold andthen. cbn [fst snd].
    assert (E : exists ls, (if re then b_plot (b_with_lines (b_init (t_b p)) (b_lines (b_init (t_b p)) ++ [(b_x (b_init (t_b p)), deref (b_init (t_b p)) sd)])) (b_x (b_with_lines (b_init (t_b p)) (b_lines (b_init (t_b p)) ++ [(b_x (b_init (t_b p)), deref (b_init (t_b p)) sd)]))) (deref (b_with_lines (b_init (t_b p)) (b_lines (b_init (t_b p)) ++ [(b_x (b_init (t_b p)), deref (b_init (t_b p)) sd)])) rd)
        else done (b_with_lines (b_init (t_b p)) (b_lines (b_init (t_b p)) ++ [(b_x (b_init (t_b p)), deref (b_init (t_b p)) sd)]))) = (b_with_lines (b_init (t_b p)) ls, Ok tt) /\ forallb drawable ls = true).
    { assert (D1 : drawable (b_x (b_init (t_b p)), deref (b_init (t_b p)) sd) = true) by (apply drawable_eq; change (length (b_x (t_b p)) = length (deref (t_b p) sd)); lia).
      assert (D2 : drawable (b_x (b_init (t_b p)), deref (b_init (t_b p)) rd) = true) by (apply drawable_eq; change (length (b_x (t_b p)) = length (deref (t_b p) rd)); lia).
      destruct re.
      - rewrite plot_ok by (cbn [b_with_lines b_init b_x]; change (length (b_x (t_b p)) = length (deref (t_b p) rd)); lia). eexists. split; [reflexivity|].
        cbn [b_init b_lines b_with_lines app forallb]. change (drawable (b_x (t_b p), deref (b_init (t_b p)) sd) && (drawable (b_x (b_init (t_b p)), deref (b_init (t_b p)) rd) && true) = true). rewrite D2. cbn in D1 |- *. rewrite D1. reflexivity.
      - eexists. split; [reflexivity|]. cbn [b_init b_lines app forallb]. cbn in D1 |- *. rewrite D1. reflexivity. }
    destruct E as [ls [E Dl]]. rewrite E. cbn [fst snd done]. eexists. split; [reflexivity|]. split; [|reflexivity].
    split; cbn [t_with_b t_width t_scale t_kind t_b]; auto.
    cbn [b_with_y b_y]. constructor; [|constructor; [|constructor]]; assumption.
  - destruct K as [Kd [Ki Ka]]. unfold alen in Ka. rewrite plot_ok by (cbn [b_init b_x]; change (deref (b_init (t_b p)) ad) with (deref (t_b p) ad); lia).
    cbn [fst snd]. eexists. split; [reflexivity|]. split; [|reflexivity]. split; cbn [t_with_b t_width t_scale t_kind t_b]; auto.
    cbn [b_with_lines b_lines b_init app forallb]. rewrite drawable_eq; [reflexivity|]. change (length (b_x (t_b p)) = length (deref (t_b p) ad)). lia.
  - unfold alen in K. rewrite plot_ok by (cbn [b_init b_x]; change (deref (b_init (t_b p)) rd) with (deref (t_b p) rd); lia).
    cbn [fst snd]. eexists. split; [reflexivity|]. split; [|reflexivity]. split; cbn [t_with_b t_width t_scale t_kind t_b]; auto.
    cbn [b_with_lines b_lines b_init app forallb]. rewrite drawable_eq; [reflexivity|]. change (length (b_x (t_b p)) = length (deref (t_b p) rd)). lia.
Qed.
Lemma redraw_drawable : forall b ls ys, Forall (fun h => length (deref b h) = length (b_x b)) ys -> forallb drawable ls = true -> forallb drawable (redraw b ls ys) = true.
Proof.
  intros b ls. induction ls as [|l ls IH]; intros [|y ys] Hy Hl; cbn [redraw]; auto. inversion Hy; subst. cbn [forallb] in *. apply Bool.andb_true_iff in Hl. destruct Hl as [_ Hl].
  rewrite drawable_eq by auto. apply IH; auto.
Qed.
Lemma ok_render : forall p, t_ok p -> b_axis (t_b p) = true -> exists p', t_render p = (p', Ok tt) /\ t_ok p' /\ b_axis (t_b p') = true.
Proof.
  intros p [W X S K Y L] A. unfold t_render, t_scale_y. cbn [t_with_b t_scale]. rewrite A, S. cbn [negb]. eexists. split; [reflexivity|]. split; [|exact A].
  split; cbn [t_width t_scale t_kind t_b t_with_b]; auto. cbn [b_render b_with_lines b_lines]. apply redraw_drawable; [|exact L].
  eapply Forall_impl; [|exact Y]. intros h Hh. unfold alen in Hh. lia.
Qed.
Lemma ok_start : forall w tau mk, (0 < w)%nat -> wanted n disc m mk -> exists p', t_set_env (mk w) tau false = (p', Ok tt) /\ t_ok p'.
Proof.
  intros w tau mk Hw Hm. unfold t_set_env. match goal with |- context [t_reset_data ?q] => set (p0 := q) end.
  assert (R : exists p1, t_reset_data p0 = (p1, Ok tt) /\ t_ok p1 /\ (forall rd, t_kind p0 = KReward rd -> exists rd', t_kind p1 = KReward rd') /\ t_width p1 = t_width p0).
  { inversion Hm; subst mk p0; apply ok_reset_data; cbn; auto. }
  destruct R as [p1 [E [O1 [Kr W1]]]]. rewrite E. unfold andthen. cbn [fst snd]. pose proof O1 as [W X S K Y L].
  destruct (t_kind p1) as [i limit nd re sd rd|i d ad|rd] eqn:Ek.
  - destruct (ok_reset_data p1 W S L) as [p2 [E2 [O2 _]]]; [rewrite Ek; apply K|]. exists p2. auto.
  - destruct (ok_reset_data p1 W S L) as [p2 [E2 [O2 _]]]; [rewrite Ek; destruct K as [? [? _]]; auto|]. exists p2. auto.
  - eexists. split; [reflexivity|]. split; cbn [t_with_kind t_with_b t_width t_scale t_kind t_b]; auto.
    + unfold alen. cbn [t_with_kind t_with_b t_width t_b]. change (deref (b_with_y ?b ?y) ?h) with (deref b h). rewrite deref_alloc_new, repeat_length. exact X.
    + cbn [b_with_y b_y]. constructor; [|constructor]. unfold alen. cbn [t_with_kind t_with_b t_width t_b]. change (deref (b_with_y ?b ?y) ?h) with (deref b h). rewrite deref_alloc_new, repeat_length. exact X.
Qed.
End Healthy.

(** ** Healthy episode and step plots *)
Definition e_ok (p : eplot) : Prop :=
  exists h len, e_kind p = KLength h len /\ (h < length (b_heap (e_b p)))%nat /\ length (b_x (e_b p)) = length (deref (e_b p) h) /\ b_y (e_b p) = [h] /\ forallb drawable (b_lines (e_b p)) = true.
Definition s_ok (p : splot) : Prop :=
  (s_viols p < length (b_heap (s_b p)))%nat /\ length (b_x (s_b p)) = length (deref (s_b p) (s_viols p)) /\ b_x (s_b p) <> [] /\ Forall (eq (s_viols p)) (b_y (s_b p)) /\ forallb drawable (b_lines (s_b p)) = true.
Lemma e_ok_reset_begin : forall p, e_ok p -> exists p', e_on_reset_begin p = (p', Ok tt) /\ e_ok p' /\ b_axis (e_b p') = b_axis (e_b p).
Proof.
  intros p [h [len [Hk [Hh [Hx [Hy Hl]]]]]]. unfold e_on_reset_begin. destruct (-1 <? e_no p)%Z.
  - unfold e_set_y. cbn [e_kind e_b]. rewrite Hk. unfold andthen; cbn [fst snd done]. eexists. split; [reflexivity|]. split; [|reflexivity].
    exists h, 0%nat. cbn [e_kind e_b]. split; [reflexivity|]. rewrite heap_push. split; [exact Hh|]. rewrite deref_push, Nat.eqb_refl by exact Hh.
    split; [|split; [exact Hy|exact Hl]]. unfold push. cbn [b_x b_write b_with_heap b_with_x]. change (deref (b_with_x ?b ?y) ?h) with (deref b h). rewrite !app_length, Hx. reflexivity.
  - eexists. split; [reflexivity|]. split; [|reflexivity]. exists h, len. auto.
Qed.
Lemma e_ok_step_end : forall k rw p, e_ok p -> e_ok (e_on_step_end k rw p) /\ b_axis (e_b (e_on_step_end k rw p)) = b_axis (e_b p).
Proof. intros k rw p [h [len [Hk H]]]. split; [|reflexivity]. exists h, k. unfold e_on_step_end. cbn [e_kind e_b]. rewrite Hk. auto. Qed.
Lemma e_ok_reset_data : forall p, e_ok p -> e_ok (e_reset_data p).
Proof.
  intros p [h [len [Hk [Hh [Hx [Hy Hl]]]]]]. unfold e_reset_data. rewrite Hk. eexists _, _. cbn [e_kind e_b]. split; [reflexivity|].
  change (deref (b_with_y ?b ?y) ?h) with (deref b h). cbn [b_heap b_with_y b_x b_y b_lines b_alloc b_with_heap]. split; [rewrite app_length; cbn; lia|].
  split; [|split; [reflexivity|exact Hl]]. rewrite (deref_alloc_new (b_reset_data (e_b p))). reflexivity.
Qed.
Lemma e_ok_initialize : forall p, e_ok p -> e_ok (e_initialize p) /\ b_axis (e_b (e_initialize p)) = true.
Proof. intros p [h [len [Hk [Hh [Hx [Hy Hl]]]]]]. unfold e_initialize. rewrite Hk. split; [|reflexivity]. exists h, len. auto. Qed.
Lemma e_ok_render : forall p, e_ok p -> b_axis (e_b p) = true -> exists p', e_render p = (p', Ok tt) /\ e_ok p' /\ b_axis (e_b p') = true.
Proof.
  intros p [h [len [Hk [Hh [Hx [Hy Hl]]]]]] A. unfold e_render. rewrite A. cbn [negb andb]. eexists. split; [reflexivity|]. split; [|exact A].
  exists h, len. cbn [e_kind e_b]. repeat split; auto. cbn [b_render b_with_lines b_lines]. apply redraw_drawable; [|exact Hl]. rewrite Hy. constructor; [auto|constructor].
Qed.
Lemma s_ok_step_end : forall tm p, s_ok p -> s_ok (s_on_step_end tm p) /\ b_axis (s_b (s_on_step_end tm p)) = b_axis (s_b p).
Proof.
  intros tm p [Hh [Hx [Hn [Hy Hl]]]]. unfold s_on_step_end. destruct tm; [|split; [repeat split|]; auto]. split; [|reflexivity].
  repeat split; cbn [s_viols s_b]; auto.
  - rewrite heap_push. cbn [b_heap b_with_x]. rewrite heap_push. exact Hh.
  - rewrite deref_push, Nat.eqb_refl by (cbn [b_heap b_with_x]; rewrite heap_push; exact Hh).
    change (deref (b_with_x ?b ?x) ?h) with (deref b h). rewrite deref_push, Nat.eqb_refl by exact Hh.
    unfold push. cbn [b_x b_write b_with_heap b_with_x]. change (deref (b_with_x ?b ?x) ?h) with (deref b h). rewrite !app_length, Hx. reflexivity.
  - unfold push. cbn [b_x b_write b_with_heap b_with_x]. intro Hc. destruct (b_x (s_b p)); discriminate.
Qed.
Lemma s_ok_initialize : forall p, s_ok p -> exists p', s_initialize p = (p', Ok tt) /\ s_ok p' /\ b_axis (s_b p') = true.
Proof.
  intros p [Hh [Hx [Hn [Hy Hl]]]]. unfold s_initialize. cbv zeta. rewrite plot_ok by exact Hx. cbn [fst snd]. eexists. split; [reflexivity|]. split; [|reflexivity].
  repeat split; cbn [s_viols s_b b_with_lines b_with_y b_init b_y b_lines b_heap b_x]; auto.
  - apply Forall_app. split; [exact Hy|]. repeat constructor.
  - cbn [app forallb]. rewrite drawable_eq; [reflexivity|exact Hx].
Qed.
Lemma s_ok_render : forall p, s_ok p -> b_axis (s_b p) = true -> exists p', s_render p = (p', Ok tt) /\ s_ok p' /\ b_axis (s_b p') = true.
Proof.
  intros p [Hh [Hx [Hn [Hy Hl]]]] A. unfold s_render. rewrite A. cbn [negb]. destruct (Nat.eqb_spec (length (b_x (s_b p))) 0) as [E|E]; [destruct (b_x (s_b p)); [contradiction|discriminate]|].
  eexists. split; [reflexivity|]. split; [|exact A]. repeat split; cbn [s_viols s_b b_render b_with_lines b_lines]; auto.
  apply redraw_drawable; [|exact Hl]. eapply Forall_impl; [|exact Hy]. intros h <-. auto.
Qed.

(** ** Dashboards never raise *)
Definition is_open (d : dash) : bool := d_time_fig d || d_ep_fig d || d_step_fig d.
Record d_ok (n : nat) (disc : bool) (m : nat) (rs : bool) (d : dash) : Prop := {
  dk_i : d_interval d <> 0%Z; dk_r : rs = true -> d_step d = [];
  dk_t : Forall (fun p => t_ok n disc m p /\ (is_open d = true -> b_axis (t_b p) = true)) (d_time d);
  dk_e : Forall (fun p => e_ok p /\ (is_open d = true -> b_axis (e_b p) = true)) (d_ep d);
  dk_s : Forall (fun p => s_ok p /\ (is_open d = true -> b_axis (s_b p) = true)) (d_step d) }.
Lemma nil_len : forall A B (l : list A) (l' : list B), length l' = length l -> l = [] -> l' = [].
Proof. intros A B l l' H ->. destruct l'; [reflexivity|discriminate]. Qed.
Lemma ok_tell : forall n disc m rs ev d, d_ok n disc m rs d -> fits n disc m ev -> exists d', d_event ev d = (d', Ok tt) /\ d_ok n disc m rs d'.
Proof.
  intros n disc m rs ev d [Di Dr Dt De Ds] Hf. destruct ev as [| |a|k st rf rw tm]; cbn [d_event].
  - destruct (all_ok (fun p => done (t_on_reset_begin p)) e_on_reset_begin keep _ _ _ (fun p => t_ok n disc m p /\ (is_open d = true -> b_axis (t_b p) = true)) (fun p => e_ok p /\ (is_open d = true -> b_axis (e_b p) = true)) (fun p => s_ok p /\ (is_open d = true -> b_axis (s_b p) = true)) d Dt De Ds) as [t [e [s [E [T [Ee [Es [L1 [L2 L3]]]]]]]]].
    + intros p [A B]. eexists. split; [reflexivity|]. destruct (ok_reset_begin n disc m p A) as [A' B']. split; [exact A'|]. rewrite B'. exact B.
    + intros p [A B]. destruct (e_ok_reset_begin p A) as [p' [E' [A' B']]]. exists p'. split; [exact E'|]. split; [exact A'|]. rewrite B'. exact B.
    + intros p A. exists p. auto.
    + rewrite E. eexists. split; [reflexivity|]. split; auto. intros Hr. apply (nil_len _ _ _ _ L3 (Dr Hr)).
  - exists d. split; [reflexivity|]. split; auto.
  - destruct (all_ok (t_on_step_begin a) keep (fun p => done (s_on_step_begin p)) _ _ _ (fun p => t_ok n disc m p /\ (is_open d = true -> b_axis (t_b p) = true)) (fun p => e_ok p /\ (is_open d = true -> b_axis (e_b p) = true)) (fun p => s_ok p /\ (is_open d = true -> b_axis (s_b p) = true)) d Dt De Ds) as [t [e [s [E [T [Ee [Es [L1 [L2 L3]]]]]]]]].
    + intros p [A B]. destruct (ok_step_begin n disc m a p A Hf) as [p' [E' [A' B']]]. exists p'. split; [exact E'|]. split; [exact A'|]. rewrite B'. exact B.
    + intros p A. exists p. auto.
    + intros p A. eexists. split; [reflexivity|]. exact A.
    + rewrite E. eexists. split; [reflexivity|]. split; auto. intros Hr. apply (nil_len _ _ _ _ L3 (Dr Hr)).
  - destruct Hf as [Hs Hr].
    destruct (all_ok (t_on_step_end st rf rw tm) (fun p => done (e_on_step_end k rw p)) (fun p => done (s_on_step_end tm p)) _ _ _ (fun p => t_ok n disc m p /\ (is_open d = true -> b_axis (t_b p) = true)) (fun p => e_ok p /\ (is_open d = true -> b_axis (e_b p) = true)) (fun p => s_ok p /\ (is_open d = true -> b_axis (s_b p) = true)) d Dt De Ds) as [t [e [s [E [T [Ee [Es [L1 [L2 L3]]]]]]]]].
    + intros p [A B]. destruct (ok_step_end n disc m st rf rw tm p A Hs Hr) as [p' [E' [A' B']]]. exists p'. split; [exact E'|]. split; [exact A'|]. rewrite B'. exact B.
    + intros p [A B]. eexists. split; [reflexivity|]. destruct (e_ok_step_end k rw p A) as [A' B']. split; [exact A'|]. rewrite B'. exact B.
    + intros p [A B]. eexists. split; [reflexivity|]. destruct (s_ok_step_end tm p A) as [A' B']. split; [exact A'|]. rewrite B'. exact B.
    + rewrite E. unfold andthen. cbn [fst snd]. unfold d_count. cbn [d_with d_interval]. destruct (Z.eqb_spec (d_interval d) 0); [contradiction|].
      eexists. split; [reflexivity|]. split; auto. intros Hq. apply (nil_len _ _ _ _ L3 (Dr Hq)).
Qed.
Definition all_axes (n : nat) (disc : bool) (m : nat) (rs : bool) (d : dash) : Prop :=
  d_interval d <> 0%Z /\ (rs = true -> d_step d = []) /\ Forall (fun p => t_ok n disc m p /\ b_axis (t_b p) = true) (d_time d) /\ Forall (fun p => e_ok p /\ b_axis (e_b p) = true) (d_ep d) /\ Forall (fun p => s_ok p /\ b_axis (s_b p) = true) (d_step d).
Lemma ok_init : forall n disc m rs d, d_ok n disc m rs d -> exists d', d_initialize d = (d', Ok tt) /\ all_axes n disc m rs d' /\ d_update d' = d_update d.
Proof.
  intros n disc m rs d [Di Dr Dt De Ds]. unfold d_initialize. cbv zeta.
  match goal with |- context [all_plots keep _ keep ?q] => set (d0 := q) end.
  destruct (all_ok keep (fun p => done (e_initialize p)) keep _ _ _ (t_ok n disc m) (fun p => e_ok p /\ b_axis (e_b p) = true) s_ok d0 Dt De Ds) as [t1 [e1 [s1 [E1 [T1 [Ee1 [Es1 [L1 [L2 L3]]]]]]]]].
  { intros p [A B]. exists p. split; [reflexivity|exact A]. }
  { intros p [A B]. eexists. split; [reflexivity|]. apply e_ok_initialize. exact A. }
  { intros p [A B]. exists p. split; [reflexivity|exact A]. }
  rewrite E1. unfold andthen at 1. cbn [fst snd].
  match goal with |- context [all_plots keep keep s_initialize ?q] => set (d1 := q) end.
  destruct (all_ok keep keep s_initialize _ _ _ (t_ok n disc m) (fun p => e_ok p /\ b_axis (e_b p) = true) (fun p => s_ok p /\ b_axis (s_b p) = true) d1 T1 Ee1 Es1) as [t2 [e2 [s2 [E2 [T2 [Ee2 [Es2 [L4 [L5 L6]]]]]]]]].
  { intros p A. exists p. auto. }
  { intros p A. exists p. auto. }
  { intros p A. apply s_ok_initialize. exact A. }
  rewrite E2. unfold andthen at 1. cbn [fst snd].
  match goal with |- context [all_plots t_initialize keep keep ?q] => set (d2 := q) end.
  destruct (all_ok t_initialize keep keep _ _ _ (fun p => t_ok n disc m p /\ b_axis (t_b p) = true) (fun p => e_ok p /\ b_axis (e_b p) = true) (fun p => s_ok p /\ b_axis (s_b p) = true) d2 T2 Ee2 Es2) as [t3 [e3 [s3 [E3 [T3 [Ee3 [Es3 [L7 [L8 L9]]]]]]]]].
  { intros p A. apply ok_initialize. exact A. }
  { intros p A. exists p. auto. }
  { intros p A. exists p. auto. }
  exists (d_with d2 t3 e3 s3). split; [exact E3|]. split; [|reflexivity]. split; [exact Di|]. split; [|auto].
  intros Hr. cbn [d_with d_step]. apply (nil_len _ _ s2 s3 L9). apply (nil_len _ _ s1 s2 L6). apply (nil_len _ _ (d_step d) s1 L3). apply Dr. exact Hr.
Qed.
Lemma axes_ok : forall n disc m rs d, all_axes n disc m rs d -> d_ok n disc m rs d.
Proof.
  intros n disc m rs d [A [B [C [D E]]]]. split; auto; (eapply Forall_impl; [|eassumption]); intros p [X Y]; split; auto.
Qed.
Lemma ok_d_render : forall n disc m rs d, d_ok n disc m rs d -> exists d', d_render d = (d', Ok tt) /\ d_ok n disc m rs d' /\ d_update d' = false.
Proof.
  intros n disc m rs d Hd. unfold d_render.
  assert (G : forall q, all_axes n disc m rs q -> exists d', (if d_update q then andthen (all_plots t_render e_render s_render q) (fun d => if negb (d_drawable d) then fail d ValueError else
      done {| d_time := d_time d; d_ep := d_ep d; d_step := d_step d; d_interval := d_interval d; d_k := d_k d; d_update := false; d_ep_fig := d_ep_fig d; d_step_fig := d_step_fig d; d_time_fig := d_time_fig d |}) else done q) = (d', Ok tt) /\ d_ok n disc m rs d' /\ d_update d' = false).
  { intros q Hq. destruct (d_update q) eqn:Eu; [|exists q; split; [reflexivity|]; split; [apply axes_ok; exact Hq|exact Eu]].
    destruct Hq as [Di [Dr [Dt [De Ds]]]].
    destruct (all_ok t_render e_render s_render _ _ _ (fun p => t_ok n disc m p /\ b_axis (t_b p) = true) (fun p => e_ok p /\ b_axis (e_b p) = true) (fun p => s_ok p /\ b_axis (s_b p) = true) q Dt De Ds) as [t [e [s [E [T [Ee [Es [L1 [L2 L3]]]]]]]]].
    { intros p [A B]. apply ok_render; auto. }
    { intros p [A B]. apply e_ok_render; auto. }
    { intros p [A B]. apply s_ok_render; auto. }
    rewrite E. unfold andthen. cbn [fst snd].
    assert (Dd : d_drawable (d_with q t e s) = true).
    { unfold d_drawable. cbn [d_with d_time d_ep d_step]. rewrite !Bool.andb_true_iff. split; [split|]; apply forallb_forall; intros p Hp.
      - rewrite Forall_forall in T. destruct (T p Hp) as [[] _]. assumption.
      - rewrite Forall_forall in Ee. destruct (Ee p Hp) as [[h [len X]] _]. apply X.
      - rewrite Forall_forall in Es. destruct (Es p Hp) as [X _]. apply X. }
    rewrite Dd. cbn [negb]. eexists. split; [reflexivity|]. split; [|reflexivity]. apply axes_ok. split; [exact Di|]. split; [|auto].
    intros Hr. apply (nil_len _ _ _ _ L3 (Dr Hr)). }
  destruct (negb (d_time_fig d || d_ep_fig d || d_step_fig d) && negb (Nat.eqb (length (d_time d) + length (d_ep d) + length (d_step d)) 0)) eqn:Ec.
  - destruct (ok_init n disc m rs d Hd) as [d1 [E1 [A1 _]]]. rewrite E1. unfold andthen at 1. cbn [fst snd]. apply G. exact A1.
  - unfold andthen at 1. cbn [fst snd done]. apply G. destruct Hd as [Di Dr Dt De Ds]. split; [exact Di|]. split; [exact Dr|].
    unfold is_open in *. destruct (d_time_fig d || d_ep_fig d || d_step_fig d).
    + split; [|split]; (eapply Forall_impl; [|eassumption]); intros p [X Y]; split; auto.
    + cbn [negb andb] in Ec. apply Bool.negb_false_iff in Ec. apply Nat.eqb_eq in Ec. destruct (d_time d); [|discriminate]. destruct (d_ep d); [|discriminate]. destruct (d_step d); [|discriminate]. repeat constructor.
Qed.
Lemma ok_reset_figures : forall n disc m d, d_ok n disc m true d -> exists d', d_reset_figures d = (d', Ok tt) /\ d_ok n disc m true d'.
Proof.
  intros n disc m d [Di Dr Dt De Ds]. unfold d_reset_figures. rewrite (Dr eq_refl) in Ds.
  assert (Ds0 : Forall (fun _ : splot => True) (d_step d)) by (rewrite (Dr eq_refl); constructor).
  destruct (all_ok t_reset_data (fun p => done (e_reset_data p)) (fun p => done (s_reset_data p)) _ _ (fun _ : splot => True) (t_ok n disc m) e_ok (fun _ => True) d Dt De Ds0) as [t [e [s [E [T [Ee [Es [L1 [L2 L3]]]]]]]]].
  { intros p [A B]. pose proof A as [W X S K Y L]. destruct (ok_reset_data n disc m p W S L) as [p' [E' [O' _]]]; [|eauto]. destruct (t_kind p); intuition. }
  { intros p [A B]. eexists. split; [reflexivity|]. apply e_ok_reset_data. exact A. }
  { intros p _. eexists. split; [reflexivity|exact I]. }
  rewrite E. unfold andthen. cbn [fst snd]. eexists. split; [reflexivity|]. split; cbn [d_with d_interval d_time d_ep d_step]; auto.
  - intros _. apply (nil_len _ _ _ _ L3 (Dr eq_refl)).
  - eapply Forall_impl; [|exact T]. intros p A. split; [exact A|discriminate].
  - eapply Forall_impl; [|exact Ee]. intros p A. split; [exact A|discriminate].
  - rewrite (nil_len _ _ _ _ L3 (Dr eq_refl)). constructor.
Qed.
Lemma ok_op : forall n disc m rs o d, op_fits n disc m rs o -> d_ok n disc m rs d -> exists d', d_op o d = (d', Ok tt) /\ d_ok n disc m rs d'.
Proof.
  intros n disc m rs o d Hf Hd. destruct o as [ev| | |]; cbn [d_op op_fits] in *.
  - apply ok_tell; auto.
  - destruct (ok_d_render n disc m rs d Hd) as [d' [E [A _]]]. eauto.
  - subst rs. apply ok_reset_figures. exact Hd.
  - destruct Hd as [Di Dr Dt De Ds]. match goal with |- context [d_render ?q] => destruct (ok_d_render n disc m rs q) as [d' [E [A _]]] end; [split; auto|eauto].
Qed.
Lemma int_part_ge1 : forall x, 1 <= x -> (1 <= Int_part x)%Z.
Proof.
  intros x H. destruct (base_Int_part x) as [_ H2]. assert (H3 : 0 < IZR (Int_part x)) by lra. apply lt_IZR in H3. lia.
Qed.
Theorem dash_total : forall n disc m rs ui tw tau time ep step d0, 1 <= ui -> 1 <= tw -> Forall (wanted n disc m) time -> Forall (eq length_plot) ep -> Forall (eq violation_plot) step -> (rs = true -> step = []) ->
  d_new ui tw time ep step = Ok d0 -> exists d1, d_set_env tau false d0 = (d1, Ok tt) /\ forall ops, Forall (op_fits n disc m rs) ops -> exists d, d_run ops d1 = (d, Ok tt).
Proof.
  intros n disc m rs ui tw tau time ep step d0 Hu Hw Ft Fe Fs Hr H0. unfold d_new in H0. destruct (py_assert (rlt 0 ui)); [|discriminate]. destruct (py_assert (rlt 0 tw)); [|discriminate]. cbn [bind] in H0. injection H0 as <-.
  pose proof (int_part_ge1 _ Hu) as Iu. pose proof (int_part_ge1 _ Hw) as Iw.
  unfold d_set_env. match goal with |- context [all_plots _ _ _ ?q] => set (d0 := q) end.
  assert (F1 : Forall (fun p => exists mk, wanted n disc m mk /\ p = mk (Z.to_nat (Int_part tw))) (d_time d0)).
  { subst d0. cbn [d_time]. apply Forall_forall. intros p Hp. apply in_map_iff in Hp. destruct Hp as [mk [<- Hm]]. rewrite Forall_forall in Ft. eauto. }
  destruct (all_ok (fun p => t_set_env p tau false) keep keep _ _ _ (t_ok n disc m) (eq length_plot) (eq violation_plot) d0 F1 Fe Fs) as [t [e [s [E [T [Ee [Es [L1 [L2 L3]]]]]]]]].
  { intros p [mk [Hm ->]]. destruct (ok_start n disc m (Z.to_nat (Int_part tw)) tau mk) as [p' [E' O']]; [lia|exact Hm|]. exists p'. split; assumption. }
  { intros p A. exists p. split; [reflexivity|exact A]. }
  { intros p A. exists p. split; [reflexivity|exact A]. }
  rewrite E. eexists. split; [reflexivity|].
  assert (D1 : d_ok n disc m rs (d_with d0 t e s)).
  { split; cbn [d_with d_interval d_time d_ep d_step].
    - subst d0; cbn [d_interval]. lia.
    - intros Hq. apply (nil_len _ _ _ _ L3). apply Hr. exact Hq.
    - eapply Forall_impl; [|exact T]. intros p A. split; [exact A|]. subst d0. discriminate.
    - eapply Forall_impl; [|exact Ee]. intros p <-. split; [|subst d0; discriminate]. exists 0%nat, 0%nat. cbn. repeat split; auto.
    - eapply Forall_impl; [|exact Es]. intros p <-. split; [|subst d0; discriminate]. unfold s_ok. cbn. repeat split; auto. discriminate. }
  intros ops. revert D1. generalize (d_with d0 t e s) as q. induction ops as [|o ops IH]; intros q Hq Hf; [exists q; reflexivity|]. inversion Hf; subst.
  destruct (ok_op n disc m rs o q H1 Hq) as [q' [Eq Hq']]. cbn [d_run]. rewrite Eq. unfold andthen. cbn [fst snd]. apply IH; auto.
Qed.

(** ** Intervals *)
Lemma init_frame : forall d d' r, d_initialize d = (d', r) -> d_interval d' = d_interval d /\ d_k d' = d_k d /\ d_update d' = d_update d.
Proof.
  intros d d' r H. unfold d_initialize in H. cbv zeta in H. unfold andthen at 1 in H.
  match type of H with match snd ?c with _ => _ end = _ => destruct c as [d1 [u|e]] eqn:E1 end; cbn [fst snd] in H; apply all_frame in E1; destruct E1 as [t1 [e1 [s1 ->]]]; [|injection H as <- _; auto].
  unfold andthen in H. match type of H with match snd ?c with _ => _ end = _ => destruct c as [d2 [u2|e]] eqn:E2 end; cbn [fst snd] in H; apply all_frame in E2; destruct E2 as [t2 [e2 [s2 ->]]]; [|injection H as <- _; auto].
  apply all_frame in H. destruct H as [t3 [e3 [s3 ->]]]. auto.
Qed.
Lemma render_frame : forall d d', d_render d = (d', Ok tt) -> d_interval d' = d_interval d /\ d_k d' = d_k d /\ d_update d' = false.
Proof.
  intros d d' H. unfold d_render in H. unfold andthen at 1 in H.
  match type of H with match snd ?c with _ => _ end = _ => destruct c as [d1 [u|e]] eqn:E1 end; cbn [fst snd] in H; [|discriminate].
  assert (F : d_interval d1 = d_interval d /\ d_k d1 = d_k d /\ d_update d1 = d_update d).
  { destruct (negb _ && negb _); [eapply init_frame; exact E1|injection E1 as <- _; auto]. }
  destruct F as [F1 [F2 F3]]. destruct (d_update d1) eqn:Eu; [|injection H as <-; auto].
  unfold andthen in H. destruct (all_plots t_render e_render s_render d1) as [d2 [u2|e]] eqn:E2; cbn [fst snd] in H; [|discriminate]. apply all_frame in E2. destruct E2 as [t2 [e2 [s2 ->]]].
  destruct (negb (d_drawable _)); [discriminate|]. injection H as <-. cbn. auto.
Qed.
Lemma reset_frame : forall d d', d_reset_figures d = (d', Ok tt) -> d_interval d' = d_interval d /\ d_k d' = d_k d /\ d_update d' = d_update d.
Proof.
  intros d d' H. unfold d_reset_figures, andthen in H. match type of H with match snd ?c with _ => _ end = _ => destruct c as [d1 [u|e]] eqn:E1 end; cbn [fst snd] in H; [|discriminate].
  apply all_frame in E1. destruct E1 as [t1 [e1 [s1 ->]]]. injection H as <-. auto.
Qed.
Definition due (N : Z) (acc : nat * nat) : Prop := exists j, (snd acc < j <= fst acc)%nat /\ (Z.of_nat j mod N = 0)%Z.
Lemma updates_run : forall N ops acc d d', N <> 0%Z -> (snd acc <= fst acc)%nat -> d_interval d = N -> d_k d = Z.of_nat (fst acc) -> (d_update d = true <-> due N acc) -> d_run ops d = (d', Ok tt) ->
  let acc' := fold_left d_upd ops acc in d_k d' = Z.of_nat (fst acc') /\ (d_update d' = true <-> due N acc').
Proof.
  intros N ops. induction ops as [|o ops IH]; intros acc d d' HN Ha Hi Hk Hu Hr; cbv zeta.
  - cbn in Hr. injection Hr as <-. auto.
  - cbn [d_run] in Hr. unfold andthen in Hr. destruct (d_op o d) as [d1 [u|e]] eqn:E; cbn [fst snd] in Hr; [|discriminate]. destruct u.
    cbn [fold_left]. destruct o as [ev| | |]; cbn [d_op] in E.
    + destruct ev as [| |a|k st rf rw tm]; cbn [d_event] in E.
      * apply all_frame in E. destruct E as [t [e [s ->]]]. apply (IH acc) in Hr; auto.
      * injection E as <-. apply (IH acc) in Hr; auto.
      * apply all_frame in E. destruct E as [t [e [s ->]]]. apply (IH acc) in Hr; auto.
      * unfold andthen in E. match type of E with match snd ?c with _ => _ end = _ => destruct c as [d2 [u|e]] eqn:E1 end; cbn [fst snd] in E; [|discriminate].
        apply all_frame in E1. destruct E1 as [t [e [s ->]]]. unfold d_count in E. cbn [d_with d_interval d_k] in E. rewrite Hi in E. destruct (Z.eqb_spec N 0); [contradiction|].
        injection E as <-. cbn [d_upd]. apply (IH (S (fst acc), snd acc)) in Hr; auto.
        -- cbn [fst snd]. lia.
        -- cbn [d_k fst]. rewrite Hk. lia.
        -- cbn [d_update]. rewrite Hk. replace (Z.of_nat (fst acc) + 1)%Z with (Z.of_nat (S (fst acc))) by lia.
           destruct (Z.eqb_spec (Z.of_nat (S (fst acc)) mod N) 0) as [Em|Em].
           ++ split; [|auto]. intros _. exists (S (fst acc)). cbn [fst snd]. split; [lia|exact Em].
           ++ cbn [d_update d_with]. rewrite Hu. unfold due. cbn [fst snd]. split; intros [j [Hj Hm]]; exists j.
              ** split; [lia|exact Hm].
              ** split; [|exact Hm]. assert (j <> S (fst acc)) by (intro; subst j; contradiction). lia.
    + destruct (render_frame _ _ E) as [F1 [F2 F3]]. cbn [d_upd]. apply (IH (fst acc, fst acc) d1 d'); auto; try (rewrite F1; exact Hi); try (rewrite F2; exact Hk).
      rewrite F3. split; [discriminate|]. intros [j [Hj _]]. cbn [fst snd] in Hj. lia.
    + destruct (reset_frame _ _ E) as [F1 [F2 F3]]. cbn [d_upd]. apply (IH acc d1 d'); auto; try (rewrite F1; exact Hi); try (rewrite F2; exact Hk); rewrite F3; exact Hu.
    + destruct (render_frame _ _ E) as [F1 [F2 F3]]. cbn [d_interval d_k] in F1, F2. cbn [d_upd]. apply (IH (fst acc, fst acc) d1 d'); auto; try (rewrite F1; exact Hi); try (rewrite F2; exact Hk).
      rewrite F3. split; [discriminate|]. intros [j [Hj _]]. cbn [fst snd] in Hj. lia.
Qed.

(** ** What goes wrong *)
Theorem zero_interval : forall ui tw tau scale time ep step d0 d1 k st rf rw tm, 0 < ui < 1 -> d_new ui tw time ep step = Ok d0 -> d_set_env tau scale d0 = (d1, Ok tt) ->
  forall d2, snd (d_event (StepEnd k st rf rw tm) d1) <> Ok tt /\ (all_plots (t_on_step_end st rf rw tm) (fun p => done (e_on_step_end k rw p)) (fun p => done (s_on_step_end tm p)) d1 = (d2, Ok tt) -> snd (d_event (StepEnd k st rf rw tm) d1) = Err ZeroDivisionError).
Proof.
  intros ui tw tau scale time ep step d0 d1 k st rf rw tm Hu H0 H1 d2.
  unfold d_new in H0. destruct (py_assert (rlt 0 ui)); [|discriminate]. destruct (py_assert (rlt 0 tw)); [|discriminate]. cbn [bind] in H0. injection H0 as <-.
  apply all_frame in H1. destruct H1 as [t [e [s ->]]].
  assert (Ei : Int_part ui = 0%Z).
  { destruct (base_Int_part ui) as [A B]. assert (C1 : IZR (Int_part ui) < 1) by lra. assert (C2 : -1 < IZR (Int_part ui)) by lra. apply lt_IZR in C1. apply lt_IZR in C2. lia. }
  cbn [d_event]. unfold andthen. match goal with |- context [all_plots ?a ?b ?c ?d] => destruct (all_plots a b c d) as [q [u|x]] eqn:E end; cbn [fst snd].
  - apply all_frame in E. destruct E as [t' [e' [s' ->]]]. unfold d_count. cbn [d_with d_interval]. rewrite Ei. cbn. split; [discriminate|reflexivity].
  - split; discriminate.
Qed.
Theorem zero_width : forall ui tw tau scale mk time ep step d0, 0 < tw < 1 -> (forall w, t_width (mk w) = w) -> d_new ui tw (mk :: time) ep step = Ok d0 -> snd (d_set_env tau scale d0) = Err IndexError.
Proof.
  intros ui tw tau scale mk time ep step d0 Hu Hm H0.
  unfold d_new in H0. destruct (py_assert (rlt 0 ui)); [|discriminate]. destruct (py_assert (rlt 0 tw)); [|discriminate]. cbn [bind] in H0. injection H0 as <-.
  assert (Ei : Int_part tw = 0%Z).
  { destruct (base_Int_part tw) as [A B]. assert (C1 : IZR (Int_part tw) < 1) by lra. assert (C2 : -1 < IZR (Int_part tw)) by lra. apply lt_IZR in C1. apply lt_IZR in C2. lia. }
  rewrite Ei. unfold d_set_env, all_plots. cbn [d_time map each_plot Z.to_nat]. unfold t_set_env at 1, andthen, t_reset_data. cbn [t_width]. rewrite Hm. reflexivity.
Qed.
Theorem reset_figures_breaks : forall d d1, d_step d <> [] -> d_reset_figures d = (d1, Ok tt) -> snd (d_op Render d1) = Err ValueError.
Proof.
  intros d d1 Hs H. unfold d_reset_figures, andthen in H.
  destruct (all_plots t_reset_data (fun p => done (e_reset_data p)) (fun p => done (s_reset_data p)) d) as [q [u|e]] eqn:E; cbn [fst snd] in H; [|discriminate]. injection H as <-.
  assert (Hq : exists p s, d_step q = s_reset_data p :: s).
  { unfold all_plots in E. destruct (each_plot t_reset_data (d_time d)) as [t [u1|x]]; [|discriminate]. destruct (each_plot _ (d_ep d)) as [e [u2|x]]; [|discriminate].
    destruct (d_step d) as [|p sl]; [contradiction|]. cbn [each_plot done] in E. destruct (each_plot _ sl) as [s r]. injection E as <- _. cbn. eauto. }
  destruct Hq as [p [s Hq]]. cbn [d_op]. unfold d_render. cbn [d_time_fig d_ep_fig d_step_fig d_time d_ep d_step orb negb]. rewrite Hq. cbn [length].
  replace (length (d_time q) + length (d_ep q) + S (length s))%nat with (S (length (d_time q) + length (d_ep q) + length s)) by lia. cbn [Nat.eqb negb andb].
  unfold d_initialize. cbv zeta. cbn [d_time d_ep d_step d_interval d_k d_update d_ep_fig d_step_fig d_time_fig].
  match goal with |- context [all_plots keep (fun p => done (e_initialize p)) keep ?x] => set (x0 := x) end.
  assert (A : exists e1, all_plots keep (fun p => done (e_initialize p)) keep x0 = (d_with x0 (d_time q) e1 (d_step q), Ok tt)).
  { assert (K : forall P (l : list P), each_plot keep l = (l, Ok tt)) by (intros P l; induction l as [|y l IH]; [reflexivity|cbn; rewrite IH; reflexivity]).
    assert (K2 : forall l, each_plot (fun p => done (e_initialize p)) l = (map e_initialize l, Ok tt)) by (intros l; induction l as [|y l IH]; [reflexivity|cbn; rewrite IH; reflexivity]).
    unfold all_plots. rewrite K, K2, K. subst x0. cbn [d_step d_time]. rewrite <- Hq. eexists. reflexivity. }
  destruct A as [e1 A]. rewrite A. unfold andthen at 2. cbn [fst snd].
  match goal with |- context [all_plots keep keep s_initialize ?x] => set (x1 := x) end.
  assert (B : exists x2, all_plots keep keep s_initialize x1 = (x2, Err ValueError)).
  { assert (K : forall P (l : list P), each_plot keep l = (l, Ok tt)) by (intros P l; induction l as [|y l IH]; [reflexivity|cbn; rewrite IH; reflexivity]).
    unfold all_plots. rewrite !K. subst x1. cbn [d_step d_with]. rewrite Hq. cbn [each_plot].
    assert (S0 : exists y, s_initialize (s_reset_data p) = (y, Err ValueError)).
    { pose proof (violations_after_reset p [] (s_reset_data p) (Forall_nil _) eq_refl) as V. cbn [s_op] in V. destruct (s_initialize (s_reset_data p)) as [y r]. cbn [snd] in V. subst r. eauto. }
    destruct S0 as [y S0]. rewrite S0. eexists. reflexivity. }
  destruct B as [x2 B]. rewrite B. reflexivity.
Qed.

(** ** The console *)
Lemma c_run_app : forall l1 l2 p, c_run (l1 ++ l2) p = andthen (c_run l1 p) (c_run l2).
Proof.
  intros l1. induction l1 as [|o l1 IH]; intros l2 p; [reflexivity|]. cbn [c_run app]. unfold andthen at 1 3. destruct (c_op o p) as [q [u|e]]; cbn [fst snd]; [rewrite IH; reflexivity|reflexivity].
Qed.
Definition c_state (v : Z) (f k : nat) (cum : R) (dn : bool) (ep : nat) (rs : bool) (out : list message) : printer :=
  {| c_verbose := v; c_freq := f; c_k := k; c_cum := cum; c_done := dn; c_episode := ep; c_reset := rs; c_out := out |}.
Lemma ep_run : forall steps k v f k0 cum dn ep rs out,
  c_run (flat_map (fun x => [CStepBegin (fst x); CStepEnd (S (fst x)) (fst (snd x)) (snd (snd x))]) (combine (seq k (length steps)) steps)) (c_state v f k0 cum dn ep rs out)
  = (c_state v f (match steps with [] => k0 | _ => k + length steps end)%nat (cum + rsum (map fst steps)) (last (map snd steps) dn) ep rs out, Ok tt).
Proof.
  intros steps. induction steps as [|[r t] steps IH]; intros k v f k0 cum dn ep rs out.
  - cbn. unfold done, c_state. rewrite Rplus_0_r. reflexivity.
  - cbn [length seq combine flat_map app c_run c_op fst snd]. unfold andthen at 1. cbn [fst snd done]. unfold andthen at 1. cbn [fst snd done].
    change (c_run ?l {| c_verbose := v; c_freq := f; c_k := S k; c_cum := cum + r; c_done := t; c_episode := ep; c_reset := rs; c_out := out |}) with (c_run l (c_state v f (S k) (cum + r) t ep rs out)).
    rewrite IH. f_equal. unfold c_state. f_equal.
    + destruct steps; cbn; lia.
    + unfold rsum. cbn. lra.
    + cbn [map snd]. destruct steps as [|x steps]; [reflexivity|]. cbn [map]. clear. revert x. induction steps as [|y steps IH]; intros x; [reflexivity|]. cbn [map last] in *. apply IH.
Qed.
Lemma first_report : forall f, c_run [CReset; CRender] (printer_new 1 f) = (c_state 1 f 0 0 false 1 false [EpisodeEnd 0 false 0 0], Ok tt).
Proof. intros f. reflexivity. Qed.
Lemma reset_report : forall f k cum dn no out, c_run [CReset; CRender] (c_state 1 f k cum dn no false out) = (c_state 1 f k 0 dn (S no) false (out ++ [EpisodeEnd no dn k cum]), Ok tt).
Proof. intros. reflexivity. Qed.
Lemma last_any : forall (l : list bool) a b, l <> [] -> last l a = last l b.
Proof. intros l a b. induction l as [|x [|y l] IH]; intros H; [contradiction|reflexivity|]. cbn [last] in *. apply IH. discriminate. Qed.
Theorem reports_right : forall f eps, Forall (fun e => e <> []) eps ->
  exists p, c_run (session eps) (printer_new 1 f) = (p, Ok tt) /\ c_out p = EpisodeEnd 0 false 0 0 :: map (fun x => report (fst x) (snd x)) (combine (seq 1 (length eps)) eps).
Proof.
  intros f eps Hn. unfold session. rewrite c_run_app, first_report. unfold andthen. cbn [fst snd].
  assert (G : forall eps no k0 dn out, Forall (fun e => e <> []) eps -> exists p, c_run (flat_map (fun e => ep_ops e ++ [CReset; CRender]) eps) (c_state 1 f k0 0 dn no false out) = (p, Ok tt)
     /\ c_out p = out ++ map (fun x => report (fst x) (snd x)) (combine (seq no (length eps)) eps)).
  { clear eps Hn. induction eps as [|e eps IH]; intros no k0 dn out Hn.
    - eexists. split; [reflexivity|]. cbn. rewrite app_nil_r. reflexivity.
    - inversion Hn; subst. cbn [flat_map]. rewrite c_run_app, c_run_app. unfold ep_ops. rewrite ep_run. unfold andthen at 2. cbn [fst snd].
      rewrite reset_report. unfold andthen. cbn [fst snd].
      edestruct (IH (S no)) as [p [E O]]; [exact H2|]. exists p. split; [exact E|].
      rewrite O. cbn [length seq combine map fst snd]. rewrite <- app_assoc. cbn [app]. unfold report. rewrite (last_any _ dn false) by (destruct e; [contradiction|discriminate]).
      rewrite Rplus_0_l. destruct e; [contradiction|reflexivity]. }
  destruct (G eps 1%nat 0%nat false [EpisodeEnd 0 false 0 0] Hn) as [p [E O]]. exists p. split; [|exact O]. exact E.
Qed.
(** Rendering after steps only: the message shows the new episode. *)
Theorem reports_wrong : forall f e r t, exists p,
  c_run ([CReset; CRender] ++ ep_ops e ++ [CReset] ++ ep_ops [(r, t)] ++ [CRender]) (printer_new 1 f) = (p, Ok tt) /\ c_out p = [EpisodeEnd 0 false 0 0; EpisodeEnd 1 t 1 (rsum (map fst e) + r)].
Proof.
  intros f e r t. rewrite c_run_app, first_report. unfold andthen at 1. cbn [fst snd].
  rewrite c_run_app. unfold ep_ops at 1. rewrite ep_run. unfold andthen at 1. cbn [fst snd]. cbn. eexists. split; [reflexivity|]. cbn. rewrite Rplus_0_l. reflexivity.
Qed.

(** ** References of the controller *)
Theorem plotter_aligned : forall w i limit nd tau scale p0 ops p v p', t_set_env (state_plot w i limit nd true) tau scale = (p0, Ok tt) -> p_run t_op ops p0 = (p, Ok tt) -> t_update_ref v p = (p', Ok tt) ->
  steps ops <> [] -> let n := length (steps ops) in exists j sd rd, t_kind p' = KState i limit nd true sd rd /\ (j < w)%nat
  /\ nth_error (b_x (t_b p')) j = Some (INR n * tau) /\ nth_error (deref (t_b p') sd) j = Some (Some (physical limit nd (state_at i (sa_state (last (steps ops) {| sa_state := []; sa_ref := []; sa_reward := 0; sa_term := false |})))))
  /\ nth_error (deref (t_b p') rd) j = Some (Some v).
Proof.
  intros w i limit nd tau scale p0 ops p v p' H0 Hr Hu Hn. cbv zeta.
  pose proof (state_window _ _ _ _ _ _ _ _ _ _ H0 Hr) as [[T1 T2 T3 T4 T5] [sd [rd [Hk [Hne [Hsd [Hrd [Rx [Rs [Rr _]]]]]]]]]].
  unfold t_update_ref in Hu. rewrite Hk in Hu. rewrite (mod_k p (length (steps ops)) w T1 T2 T4) in Hu. cbn [lift_r] in Hu. injection Hu as <-.
  destruct (steps ops) as [|x l] eqn:Es using rev_ind; [contradiction|]. clear IHl Hn. rewrite last_last.
  exists ((length (l ++ [x])) mod w)%nat, sd, rd. cbn [t_with_b t_kind t_b]. split; [exact Hk|]. split; [apply Nat.mod_upper_bound; lia|].
  assert (El : length (l ++ [x]) = (length l + 1)%nat) by (rewrite app_length; reflexivity).
  destruct Rx as [_ [X _]]. destruct Rs as [_ [S _]]. destruct Rr as [Lr _].
  split; [|split].
  - specialize (X (length l) (INR (length l + 1) * tau)). rewrite times_length in X. rewrite El in *. apply X; [|lia].
    rewrite Nat.add_1_r, times_snoc, nth_error_app2; rewrite times_length; [|lia]. rewrite Nat.sub_diag, Nat.add_1_r. reflexivity.
  - rewrite deref_put by exact Hrd. rewrite (proj2 (Nat.eqb_neq _ _)) by auto.
    specialize (S (length l) (Some (physical limit nd (state_at i (sa_state x))))). rewrite map_app, nth_error_app2 in S by (rewrite map_length; lia). rewrite !map_length, Nat.sub_diag in S. cbn [map nth_error] in S.
    rewrite El. apply S; [reflexivity|]. rewrite app_length, map_length; cbn. lia.
  - rewrite deref_put by exact Hrd. rewrite Nat.eqb_refl, list_set_nth_error, Nat.eqb_refl, Lr. rewrite (proj2 (Nat.ltb_lt _ _)); [reflexivity|]. apply Nat.mod_upper_bound; lia.
Qed.
