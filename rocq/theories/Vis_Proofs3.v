(** Proofs about episode plots and the plot of the violations. *)
From Coq Require Import Lia Lra.
From Verif Require Import PyBase PyBaseFacts Vis_Model Vis_Spec Vis_Proofs Vis_Proofs2.
Local Open Scope list_scope. Local Open Scope R_scope.

Definition ep_upd (acc : list (list R) * option (list R)) (o : pop) : list (list R) * option (list R) :=
  match o with
  | PTell ResetBegin => match snd acc with Some c => (fst acc ++ [c], Some []) | None => (fst acc, Some []) end
  | PTell (StepEnd _ _ _ rw _) => match snd acc with Some c => (fst acc, Some (c ++ [rw])) | None => acc end
  | _ => acc
  end.
Lemma episodes_cons : forall acc o ops, episodes_from acc (o :: ops) = episodes_from (ep_upd acc o) ops.
Proof. reflexivity. Qed.
Lemma deref_push : forall b h v g, (h < length (b_heap b))%nat -> deref (push b h v) g = if Nat.eqb h g then deref b h ++ [Some v] else deref b g.
Proof.
  intros b h v g Hh. unfold push, b_write, deref, b_with_heap; cbn [b_heap].
  destruct (Nat.eqb_spec h g) as [<-|Hne].
  - apply nth_error_nth with (d := []). rewrite list_set_nth_error, Nat.eqb_refl. rewrite (proj2 (Nat.ltb_lt _ _) Hh). reflexivity.
  - assert (E : nth_error (list_set h (nth h (b_heap b) [] ++ [Some v]) (b_heap b)) g = nth_error (b_heap b) g).
    { rewrite list_set_nth_error. rewrite (proj2 (Nat.eqb_neq _ _) Hne). reflexivity. }
    destruct (nth_error (b_heap b) g) as [a|] eqn:Eg.
    + rewrite (nth_error_nth _ _ [] E). rewrite (nth_error_nth _ _ [] Eg). reflexivity.
    + apply nth_error_None in E. apply nth_error_None in Eg. rewrite !nth_overflow; auto.
Qed.
Lemma heap_push : forall b h v, length (b_heap (push b h v)) = length (b_heap b).
Proof. intros. unfold push, b_write; cbn. apply list_set_length. Qed.

Definition cur_len (c : option (list R)) : nat := match c with Some l => length l | None => 0 end.
Definition cur_sum (c : option (list R)) : R := match c with Some l => rsum l | None => 0 end.
Definition ep_no (f : list (list R)) (c : option (list R)) : Z := match c with Some _ => Z.of_nat (length f) | None => -1 end.
Definition xs (n : nat) : list R := map INR (seq 0 n).
Lemma xs_snoc : forall n, xs (S n) = xs n ++ [INR n].
Proof. intros n. unfold xs. rewrite seq_S, map_app. reflexivity. Qed.

(** ** Lengths *)
Record linv (f : list (list R)) (c : option (list R)) (p : eplot) : Prop := {
  li_no : e_no p = ep_no f c; li_none : c = None -> f = [];
  li_x : b_x (e_b p) = xs (length f);
  li_h : exists h, e_kind p = KLength h (cur_len c) /\ (h < length (b_heap (e_b p)))%nat /\ b_y (e_b p) = [h] /\ deref (e_b p) h = map (fun l => Some (INR (length l))) f }.
Lemma linv_run : forall ops f c p p', linv f c p -> Forall no_reset ops -> counted (option_map (@length R) c) ops -> p_run e_op ops p = (p', Ok tt) ->
  linv (fst (episodes_from (f, c) ops)) (snd (episodes_from (f, c) ops)) p'.
Proof.
  intros ops. induction ops as [|o ops IH]; intros f c p p' Hi Hf Hc Hr.
  - cbn in Hr. injection Hr as <-. exact Hi.
  - inversion Hf; subst. cbn [p_run] in Hr. unfold andthen in Hr. destruct (e_op o p) as [p1 [u|e]] eqn:E; cbn [fst snd] in Hr; [|discriminate]. destruct u.
    rewrite episodes_cons.
    destruct Hi as [L1 L2 L3 [h [Hk [Hh [Hy Hd]]]]].
    destruct o as [ev| | |]; cbn [e_op] in E.
    + destruct ev as [| |a|k st rf rw tm]; cbn [ep_upd fst snd counted] in *.
      * destruct c as [c|]; cbn [option_map] in *.
        -- unfold e_on_reset_begin in E. rewrite L1 in E. cbn [ep_no] in E. rewrite (proj2 (Z.ltb_lt _ _)) in E by lia.
           unfold e_set_y in E. cbn [e_kind e_b] in E. rewrite Hk in E. cbn [andthen fst snd done] in E. unfold andthen in E; cbn [fst snd done] in E. injection E as <-.
           apply (IH _ _ _ _) with (2 := H2) (3 := Hc) (4 := Hr). split.
           ++ cbn [e_no ep_no]. rewrite app_length; cbn. lia.
           ++ discriminate.
           ++ cbn [e_b]. unfold push. cbn [b_x b_write b_with_heap b_with_x]. rewrite L3, app_length; cbn [length]. rewrite Nat.add_1_r, xs_snoc, INR_IZR_INZ. reflexivity.
           ++ exists h. cbn [e_kind e_b]. split; [reflexivity|]. rewrite heap_push. split; [exact Hh|]. split; [exact Hy|].
              rewrite deref_push by exact Hh. rewrite Nat.eqb_refl, map_app. cbn [map cur_len]. rewrite <- Hd. reflexivity.
        -- rewrite (L2 eq_refl) in *. unfold e_on_reset_begin in E. rewrite L1 in E. cbn [ep_no] in E. rewrite (proj2 (Z.ltb_ge _ _)) in E by lia.
           cbn [andthen fst snd done] in E. injection E as <-. apply (IH _ _ _ _) with (2 := H2) (3 := Hc) (4 := Hr). split; auto.
           ++ cbn [e_no]. rewrite L1. reflexivity.
           ++ exists h. auto.
      * injection E as <-. apply (IH _ _ _ _) with (2 := H2) (3 := Hc) (4 := Hr). split; auto. exists h; auto.
      * injection E as <-. apply (IH _ _ _ _) with (2 := H2) (3 := Hc) (4 := Hr). split; auto. exists h; auto.
      * injection E as <-. destruct c as [c|]; cbn [option_map] in Hc; [|contradiction]. destruct Hc as [-> Hc].
        apply (IH f (Some (c ++ [rw]))) with (2 := H2) (4 := Hr).
        -- split; auto; try discriminate. exists h. unfold e_on_step_end. cbn [e_kind e_b]. rewrite Hk. split; [cbn [cur_len]; rewrite app_length; cbn; rewrite Nat.add_1_r; reflexivity|]. auto.
        -- cbn [option_map]. rewrite app_length; cbn. rewrite Nat.add_1_r. exact Hc.
    + injection E as <-. apply (IH f c) with (2 := H2) (3 := Hc) (4 := Hr). unfold e_initialize. rewrite Hk. split; auto. exists h; auto.
    + unfold e_render in E. destruct (negb (b_axis (e_b p)) && _); [discriminate|]. injection E as <-. apply (IH f c) with (2 := H2) (3 := Hc) (4 := Hr). split; auto. exists h; auto.
    + contradiction.
Qed.
Theorem lengths_right : forall ops p, Forall no_reset ops -> counted None ops -> p_run e_op ops length_plot = (p, Ok tt) -> linv (fst (episodes ops)) (snd (episodes ops)) p.
Proof.
  intros ops p Hf Hc Hr. unfold episodes. apply (linv_run ops [] None length_plot p); auto. split; auto. exists 0%nat. repeat split; auto.
Qed.
(** Lengths never raise. *)
Theorem lengths_total : forall ops, Forall no_reset ops -> Forall (fun o => o <> PRender) ops -> exists p, p_run e_op ops length_plot = (p, Ok tt).
Proof.
  intros ops Hf Hn. assert (G : forall p h l, e_kind p = KLength h l -> exists p', p_run e_op ops p = (p', Ok tt)).
  { induction ops as [|o ops IH]; intros p h l Hk; [exists p; reflexivity|]. inversion Hf; subst. inversion Hn; subst.
    assert (X : exists p1 h1 l1, e_op o p = (p1, Ok tt) /\ e_kind p1 = KLength h1 l1).
    { destruct o as [ev| | |]; cbn [e_op].
      - destruct ev as [| |a|k st rf rw tm].
        + unfold e_on_reset_begin. destruct (-1 <? e_no p)%Z; [|eexists _, _, _; split; [reflexivity|cbn; exact Hk]]. unfold e_set_y. cbn [e_kind]. rewrite Hk. eexists _, _, _. split; reflexivity.
        + exists p, h, l. split; [reflexivity|exact Hk].
        + exists p, h, l. split; [reflexivity|exact Hk].
        + eexists _, _, _. split; [reflexivity|]. cbn. rewrite Hk. reflexivity.
      - eexists _, _, _. split; [reflexivity|]. unfold e_initialize. rewrite Hk. reflexivity.
      - contradiction.
      - contradiction. }
    destruct X as [p1 [h1 [l1 [E Hk1]]]]. cbn [p_run]. rewrite E. unfold andthen; cbn [fst snd]. eapply (IH H2 H4); eauto. }
  eapply G. reflexivity.
Qed.

(** ** Means *)
(** [m]: the finished episodes at the last [initialize]. *)
Record meaninv (m : nat) (f : list (list R)) (c : option (list R)) (p : eplot) : Prop := {
  mi_no : e_no p = ep_no f c; mi_none : c = None -> f = []; mi_m : (m <= length f)%nat;
  mi_x : b_x (e_b p) = xs (length f);
  mi_h : exists h, e_kind p = KMean h (cur_sum c) (cur_len c) /\ (h < length (b_heap (e_b p)))%nat /\ deref (e_b p) h = map (fun l => Some (mean l)) (skipn m f) }.
Lemma rsum_snoc : forall l x, rsum (l ++ [x]) = rsum l + x.
Proof. intros l x. induction l as [|y l IH]; cbn; [lra|]. cbn in IH. unfold rsum in *. cbn. rewrite IH. lra. Qed.
Lemma mean_run : forall ops m f c p p', meaninv m f c p -> Forall no_init ops -> counted (option_map (@length R) c) ops -> p_run e_op ops p = (p', Ok tt) ->
  meaninv m (fst (episodes_from (f, c) ops)) (snd (episodes_from (f, c) ops)) p' /\ (forall h s n h' s' n', e_kind p = KMean h s n -> e_kind p' = KMean h' s' n' -> h' = h) /\ b_y (e_b p') = b_y (e_b p) /\ length (b_lines (e_b p')) = length (b_lines (e_b p)).
Proof.
  intros ops. induction ops as [|o ops IH]; intros m f c p p' Hi Hf Hc Hr.
  - cbn in Hr. injection Hr as <-. split; [exact Hi|]. split; [|auto]. intros h s n h' s' n' E1 E2. rewrite E1 in E2. injection E2. auto.
  - inversion Hf; subst. cbn [p_run] in Hr. unfold andthen in Hr. destruct (e_op o p) as [p1 [u|e]] eqn:E; cbn [fst snd] in Hr; [|discriminate]. destruct u.
    rewrite episodes_cons.
    assert (X : meaninv m (fst (ep_upd (f, c) o)) (snd (ep_upd (f, c) o)) p1 /\ counted (option_map (@length R) (snd (ep_upd (f, c) o))) ops
                /\ (forall h s n h' s' n', e_kind p = KMean h s n -> e_kind p1 = KMean h' s' n' -> h' = h) /\ b_y (e_b p1) = b_y (e_b p) /\ length (b_lines (e_b p1)) = length (b_lines (e_b p))).
    { destruct Hi as [L1 L2 Lm L3 [h [Hk [Hh Hd]]]].
      destruct o as [ev| | |]; cbn [e_op] in E; try contradiction.
      - destruct ev as [| |a|k st rf rw tm]; cbn [ep_upd fst snd counted] in *.
        + destruct c as [c|]; cbn [option_map] in *.
          * unfold e_on_reset_begin in E. rewrite L1 in E. cbn [ep_no] in E. rewrite (proj2 (Z.ltb_lt _ _)) in E by lia.
            unfold e_set_y in E. cbn [e_kind e_b] in E. rewrite Hk in E. destruct (Nat.eqb_spec (cur_len (Some c)) 0) as [He|He]; [discriminate|].
            unfold andthen in E; cbn [fst snd done] in E. injection E as <-.
            split; [|split; [exact Hc|split; [|split; reflexivity]]].
            -- cbn [fst snd]. split.
               ++ cbn [e_no ep_no]. rewrite app_length; cbn. lia.
               ++ discriminate.
               ++ rewrite app_length; cbn. lia.
               ++ cbn [e_b]. unfold push. cbn [b_x b_write b_with_heap b_with_x]. rewrite L3, app_length; cbn [length]. rewrite Nat.add_1_r, xs_snoc, INR_IZR_INZ. reflexivity.
               ++ exists h. cbn [e_kind e_b]. split; [reflexivity|]. rewrite heap_push. split; [exact Hh|].
                  rewrite deref_push by exact Hh. rewrite Nat.eqb_refl, skipn_app, map_app. replace (m - length f)%nat with 0%nat by lia. cbn [skipn map].
                  rewrite <- Hd. reflexivity.
            -- intros h0 s n h' s' n' E1 E2. cbn [e_kind] in E2. congruence.
          * rewrite (L2 eq_refl) in *. unfold e_on_reset_begin in E. rewrite L1 in E. cbn [ep_no] in E. rewrite (proj2 (Z.ltb_ge _ _)) in E by lia.
            cbn [andthen fst snd done] in E. injection E as <-. split; [|split; [exact Hc|split; [|split; reflexivity]]].
            -- split; auto; [cbn [e_no]; rewrite L1; reflexivity|]. exists h. auto.
            -- intros h0 s n h' s' n' E1 E2. cbn [e_kind] in E2. congruence.
        + injection E as <-. split; [split; auto; exists h; auto|]. split; [exact Hc|]. split; [|auto]. intros; congruence.
        + injection E as <-. split; [split; auto; exists h; auto|]. split; [exact Hc|]. split; [|auto]. intros; congruence.
        + injection E as <-. destruct c as [c|]; cbn [option_map] in Hc; [|contradiction]. destruct Hc as [-> Hc]. cbn [fst snd option_map].
          split; [|split; [|split; [|split; reflexivity]]].
          * split; auto; try discriminate. exists h. unfold e_on_step_end. cbn [e_kind e_b]. rewrite Hk. split; [|auto]. cbn [cur_len cur_sum]. rewrite app_length, rsum_snoc; cbn. rewrite Nat.add_1_r. reflexivity.
          * rewrite app_length; cbn. rewrite Nat.add_1_r. exact Hc.
          * intros h0 s n h' s' n' E1 E2. unfold e_on_step_end in E2. cbn [e_kind] in E2. rewrite E1 in E2. congruence.
      - unfold e_render in E. destruct (negb (b_axis (e_b p)) && _); [discriminate|]. injection E as <-. cbn [ep_upd fst snd counted] in *.
        split; [split; auto; exists h; auto|]. split; [exact Hc|]. split; [intros; cbn [e_kind] in *; congruence|]. split; [reflexivity|]. cbn [e_b b_render b_with_lines b_lines]. apply redraw_length. }
    destruct X as [X1 [X2 [X3 [X4 X5]]]]. destruct (ep_upd (f, c) o) as [f1 c1] eqn:Eu. cbn [fst snd] in *.
    destruct (IH m f1 c1 p1 p' X1 H2 X2 Hr) as [Y1 [Y2 [Y3 Y4]]]. split; [exact Y1|]. split; [|split; [congruence|congruence]].
    intros h s n h' s' n' E1 E2. destruct X1 as [_ _ _ _ [h1 [Hk1 _]]]. rewrite (Y2 _ _ _ _ _ _ Hk1 E2). apply (X3 _ _ _ _ _ _ E1 Hk1).
Qed.
Lemma mean_start : meaninv 0 [] None mean_plot.
Proof. split; auto. exists 0%nat. repeat split; auto. Qed.
Lemma counted_app : forall ops1 ops2 c f, counted (option_map (@length R) c) (ops1 ++ ops2) -> counted (option_map (@length R) c) ops1 /\ counted (option_map (@length R) (snd (episodes_from (f, c) ops1))) ops2.
Proof.
  intros ops1. induction ops1 as [|o ops1 IH]; intros ops2 c f H; [split; [exact I|exact H]|].
  rewrite episodes_cons. cbn [app] in *.
  destruct o as [ev| | |]; try (destruct ev as [| |a|k st rf rw tm]); cbn [counted ep_upd fst snd] in *; try (apply IH; exact H).
  - destruct c as [c|]; cbn [option_map] in *; apply (IH ops2 (Some []) _ H).
  - destruct c as [c|]; cbn [option_map] in *; [|contradiction]. destruct H as [-> H].
    assert (E : Some (S (length c)) = option_map (@length R) (Some (c ++ [rw]))) by (cbn; rewrite app_length; cbn; f_equal; lia).
    rewrite E in H |- *. destruct (IH ops2 (Some (c ++ [rw])) f H) as [A B]. auto.
Qed.
Lemma episodes_split : forall ops1 ops2 acc, episodes_from acc (ops1 ++ ops2) = episodes_from (episodes_from acc ops1) ops2.
Proof. intros. unfold episodes_from. apply fold_left_app. Qed.
Lemma mean_init : forall m f c p p', meaninv m f c p -> e_op PInit p = (p', Ok tt) -> b_y (e_b p) = [] ->
  meaninv (length f) f c p' /\ length (b_lines (e_b p')) = 1%nat /\ exists h s n, e_kind p' = KMean h s n /\ b_y (e_b p') = [h].
Proof.
  intros m f c p p' [L1 L2 Lm L3 [h [Hk [Hh Hd]]]] E Hy. cbn [e_op] in E. unfold e_initialize in E. rewrite Hk in E. injection E as <-.
  split; [|split; [reflexivity|]].
  - split; auto. eexists. split; [reflexivity|]. cbn [e_b]. change (deref (b_with_lines (b_with_y ?b ?y) ?l) ?h) with (deref b h). cbn [b_heap b_with_lines b_with_y].
    split; [rewrite heap_alloc; apply Nat.lt_succ_diag_r|]. change (length (b_heap (e_b p))) with (length (b_heap (b_init (e_b p)))). rewrite deref_alloc_new, skipn_all. reflexivity.
  - eexists _, _, _. split; [reflexivity|]. cbn. rewrite Hy. reflexivity.
Qed.
Theorem means_drawn : forall ops1 ops2 p, Forall no_init ops1 -> Forall no_init ops2 -> counted None (ops1 ++ PInit :: ops2) ->
  p_run e_op (ops1 ++ PInit :: ops2 ++ [PRender]) mean_plot = (p, Ok tt) ->
  let m := length (fst (episodes ops1)) in let f := fst (episodes (ops1 ++ PInit :: ops2)) in
  b_lines (e_b p) = [(xs (length f), map (fun l => Some (mean l)) (skipn m f))] /\ (m <= length f)%nat.
Proof.
  intros ops1 ops2 p F1 F2 Hc Hr. cbv zeta.
  apply p_run_ok_app in Hr. destruct Hr as [p1 [H1 Hr]]. change (PInit :: ops2 ++ [PRender]) with ([PInit] ++ ops2 ++ [PRender]) in Hr.
  apply p_run_ok_app in Hr. destruct Hr as [p2 [H2 Hr]]. apply p_run_ok_app in Hr. destruct Hr as [p3 [H3 H4]]. apply run_one in H2. apply run_one in H4.
  destruct (counted_app ops1 (PInit :: ops2) None [] Hc) as [C1 C2]. cbn [counted] in C2.
  destruct (mean_run ops1 0 [] None mean_plot p1 mean_start F1 C1 H1) as [M1 [_ [Y1 _]]].
  destruct (mean_init _ _ _ _ _ M1 H2 Y1) as [M2 [Ln2 [h [s [n [Hk2 Y2]]]]]].
  destruct (mean_run ops2 _ _ _ p2 p3 M2 F2 C2 H3) as [M3 [K3 [Y3 Ln3]]].
  assert (Ee : episodes (ops1 ++ PInit :: ops2) = episodes_from (fst (episodes_from ([], None) ops1), snd (episodes_from ([], None) ops1)) ops2).
  { unfold episodes. rewrite episodes_split. rewrite <- surjective_pairing. reflexivity. }
  rewrite Ee. unfold episodes. destruct M3 as [_ _ Lm3 X3 [h3 [Hk3 [_ D3]]]]. assert (h3 = h) by (eapply K3; eauto). subst h3.
  split; [|exact Lm3]. cbn [e_op] in H4. unfold e_render in H4. destruct (negb (b_axis (e_b p3)) && _); [discriminate|]. injection H4 as <-.
  cbn [e_b b_render b_with_lines b_lines]. rewrite Y3, Y2. rewrite Ln2 in Ln3. destruct (b_lines (e_b p3)) as [|l1 [|l2 ls]]; try discriminate. cbn [redraw].
  rewrite X3, D3. reflexivity.
Qed.
Theorem means_two_resets : forall ops, Forall no_init ops -> counted None ops -> forall p, p_run e_op ops mean_plot = (p, Ok tt) ->
  snd (p_run e_op [PTell ResetBegin; PTell ResetBegin] p) = Err ZeroDivisionError \/ exists p', e_op (PTell ResetBegin) p = (p', Err ZeroDivisionError).
Proof.
  intros ops Hf Hc p Hr. destruct (mean_run ops 0 [] None mean_plot p mean_start Hf Hc Hr) as [M _].
  destruct (e_op (PTell ResetBegin) p) as [p1 [u|e]] eqn:E.
  - left. destruct u. cbn [p_run]. rewrite E. unfold andthen at 1. cbn [fst snd].
    destruct (mean_run [PTell ResetBegin] 0 _ _ p p1 M) as [M1 _].
    + repeat constructor.
    + exact I.
    + cbn [p_run]. rewrite E. reflexivity.
    + destruct (episodes_from ([], None) ops) as [f c]. cbn [fst snd] in M1.
      assert (E1 : snd (episodes_from (f, c) [PTell ResetBegin]) = Some []) by (cbn; destruct c; reflexivity).
      destruct M1 as [N1 _ _ _ [h [Hk _]]]. rewrite E1 in N1, Hk. cbn [cur_len cur_sum ep_no length] in *.
      cbn [e_op]. unfold e_on_reset_begin. rewrite N1. rewrite (proj2 (Z.ltb_lt _ _)) by lia. unfold e_set_y. cbn [e_kind]. rewrite Hk. reflexivity.
  - right. exists p1. destruct M as [N1 N2 _ _ [h [Hk _]]]. cbn [e_op] in E. unfold e_on_reset_begin in E. destruct (-1 <? e_no p)%Z.
    + unfold e_set_y in E. cbn [e_kind] in E. rewrite Hk in E. destruct (Nat.eqb _ 0); [|discriminate]. injection E as <- <-. reflexivity.
    + discriminate.
Qed.

(** ** Violations *)
Definition v_upd (acc : nat * list nat) (o : pop) : nat * list nat :=
  match o with
  | PTell (StepBegin _) => (S (fst acc), snd acc)
  | PTell (StepEnd _ _ _ _ true) => (fst acc, snd acc ++ [fst acc])
  | _ => acc
  end.
Lemma stairs_x_snoc : forall l n, stairs_x (l ++ [n]) = stairs_x l ++ [INR n - 1; INR n].
Proof. induction l as [|m l IH]; intros n; cbn [stairs_x app]; [reflexivity|]. rewrite IH. reflexivity. Qed.
Lemma stairs_y_snoc : forall l c n, stairs_y c (l ++ [n]) = stairs_y c l ++ [Some (INR (c + length l)); Some (INR (S (c + length l)))].
Proof.
  induction l as [|m l IH]; intros c n; cbn [stairs_y app length].
  - rewrite Nat.add_0_r. reflexivity.
  - rewrite IH. cbn [app]. replace (S c + length l)%nat with (c + S (length l))%nat by lia. reflexivity.
Qed.
Record vinv (x0 : list R) (y0 : list num) (c0 : nat) (V : nat * list nat) (p : splot) : Prop := {
  vi_k : s_k p = fst V; vi_c : s_count p = (c0 + length (snd V))%nat; vi_h : (s_viols p < length (b_heap (s_b p)))%nat;
  vi_x : b_x (s_b p) = x0 ++ stairs_x (snd V); vi_y : deref (s_b p) (s_viols p) = y0 ++ stairs_y c0 (snd V) }.
Lemma vinv_step : forall x0 y0 c0 V p o p', no_reset o -> vinv x0 y0 c0 V p -> s_op o p = (p', Ok tt) -> vinv x0 y0 c0 (v_upd V o) p' /\ s_viols p' = s_viols p.
Proof.
  intros x0 y0 c0 V p o p' Hn [V1 V2 V3 V4 V5] E. destruct o as [ev| | |]; cbn [s_op v_upd] in *; [| | |contradiction].
  - destruct ev as [| |a|k st rf rw tm].
    + injection E as <-. split; [split|]; auto.
    + injection E as <-. split; [split|]; auto.
    + injection E as <-. split; [split|]; cbn [s_on_step_begin s_k s_count s_viols s_b fst snd]; auto.
    + injection E as <-. unfold s_on_step_end. destruct tm; [|split; [split|]; auto]. split; [|reflexivity]. split; cbn [s_k s_count s_viols s_b fst snd].
      * exact V1.
      * rewrite app_length; cbn. lia.
      * rewrite heap_push. cbn [b_heap b_with_x]. rewrite heap_push. exact V3.
      * rewrite stairs_x_snoc, app_assoc, <- V4. unfold push. cbn [b_x b_write b_with_heap b_with_x]. rewrite <- app_assoc. cbn [app]. rewrite V1. reflexivity.
      * rewrite deref_push, Nat.eqb_refl by (cbn [b_heap b_with_x]; rewrite heap_push; exact V3).
        change (deref (b_with_x ?b ?x) ?h) with (deref b h). rewrite deref_push, Nat.eqb_refl by (cbn [b_heap b_with_x]; exact V3).
        change (deref (b_with_x ?b ?x) ?h) with (deref b h). rewrite V5, stairs_y_snoc, V2, <- !app_assoc. reflexivity.
  - unfold s_initialize in E. cbv zeta in E. match type of E with (_, snd ?r) = _ => destruct r as [b' r'] eqn:Eb end. cbn [fst snd] in E. injection E as <- Hr. subst r'.
    apply b_plot_ok in Eb. subst b'. split; [split|]; auto.
  - unfold s_render in E. destruct (negb (b_axis (s_b p))); [discriminate|]. destruct (Nat.eqb _ 0); [discriminate|]. injection E as <-. split; [split|]; auto.
Qed.
Lemma vinv_run : forall x0 y0 c0 ops V p p', Forall no_reset ops -> vinv x0 y0 c0 V p -> p_run s_op ops p = (p', Ok tt) -> vinv x0 y0 c0 (violations_from V ops) p' /\ s_viols p' = s_viols p.
Proof.
  intros x0 y0 c0 ops. induction ops as [|o ops IH]; intros V p p' Hf Hv Hr.
  - cbn in Hr. injection Hr as <-. auto.
  - inversion Hf; subst. cbn [p_run] in Hr. unfold andthen in Hr. destruct (s_op o p) as [p1 [u|e]] eqn:E; cbn [fst snd] in Hr; [|discriminate]. destruct u.
    destruct (vinv_step _ _ _ _ _ _ _ H1 Hv E) as [Hv1 Hs1]. destruct (IH _ _ _ H2 Hv1 Hr) as [A B]. split; [exact A|congruence].
Qed.
Lemma vinv_start : vinv [0] [Some 0] 0 (0%nat, []) violation_plot.
Proof. split; auto. Qed.
Lemma s_keep : forall h p o p', no_reset o -> (s_viols p = h /\ (exists ys, b_y (s_b p) = h :: ys) /\ length (b_lines (s_b p)) = 1%nat) -> s_op o p = (p', Ok tt) ->
  s_viols p' = h /\ (exists ys, b_y (s_b p') = h :: ys) /\ length (b_lines (s_b p')) = 1%nat.
Proof.
  intros h p o p' Hn [Hh [[ys Hy] Hl]] E. destruct o as [ev| | |]; cbn [s_op] in *; [| | |contradiction].
  - destruct ev as [| |a|k st rf rw tm]; injection E as <-; [eauto|eauto|eauto|]. unfold s_on_step_end. destruct tm; eauto.
  - unfold s_initialize in E. cbv zeta in E. match type of E with (_, snd ?r) = _ => destruct r as [b' r'] eqn:Eb end. cbn [fst snd] in E. injection E as <- Hr. subst r'.
    apply b_plot_ok in Eb. subst b'. cbn [s_b s_viols b_with_lines b_with_y b_init b_y b_lines]. rewrite Hy. cbn. eauto.
  - unfold s_render in E. destruct (negb (b_axis (s_b p))); [discriminate|]. destruct (Nat.eqb _ 0); [discriminate|]. injection E as <-.
    cbn [s_b s_viols b_render b_with_lines b_y b_lines]. rewrite redraw_length. eauto.
Qed.
Theorem violations_drawn : forall ops1 ops2 p, Forall no_init ops1 -> Forall no_reset ops2 -> p_run s_op (ops1 ++ PInit :: ops2 ++ [PRender]) violation_plot = (p, Ok tt) ->
  let V := violations (ops1 ++ PInit :: ops2) in b_lines (s_b p) = [(0 :: stairs_x V, Some 0 :: stairs_y 0 V)].
Proof.
  intros ops1 ops2 p F1 F2 Hr. cbv zeta.
  assert (F1' : Forall no_reset ops1) by (eapply Forall_impl; [|exact F1]; intros [| | |]; cbn; auto).
  assert (Hall : exists p3, p_run s_op (ops1 ++ PInit :: ops2) violation_plot = (p3, Ok tt) /\ s_op PRender p3 = (p, Ok tt)).
  { replace (ops1 ++ PInit :: ops2 ++ [PRender]) with ((ops1 ++ PInit :: ops2) ++ [PRender]) in Hr by (rewrite <- app_assoc; reflexivity).
    apply p_run_ok_app in Hr. destruct Hr as [p3 [A B]]. apply run_one in B. eauto. }
  destruct Hall as [p3 [H3 H4]].
  assert (F : Forall no_reset (ops1 ++ PInit :: ops2)) by (apply Forall_app; split; [exact F1'|constructor; [exact I|exact F2]]).
  destruct (vinv_run _ _ _ _ _ _ _ F vinv_start H3) as [[_ _ _ X Y] Hs].
  apply p_run_ok_app in H3. destruct H3 as [p1 [H1 H3]]. change (PInit :: ops2) with ([PInit] ++ ops2) in H3. apply p_run_ok_app in H3. destruct H3 as [p2 [H2 H3]]. apply run_one in H2.
  assert (Y1 : b_y (s_b p1) = [] /\ s_viols p1 = 0%nat).
  { refine (run_keep _ s_op no_init (fun q => b_y (s_b q) = [] /\ s_viols q = 0%nat) _ ops1 violation_plot p1 F1 (conj eq_refl eq_refl) H1).
    intros q o q' Hn [A B] E. destruct o as [ev| | |]; cbn [s_op] in *; [|contradiction| |contradiction].
    - destruct ev as [| |a|k st rf rw tm]; injection E as <-; auto. unfold s_on_step_end. destruct tm; auto.
    - unfold s_render in E. destruct (negb (b_axis (s_b q))); [discriminate|]. destruct (Nat.eqb _ 0); [discriminate|]. injection E as <-. auto. }
  destruct Y1 as [Y1 S1].
  assert (K2 : s_viols p2 = 0%nat /\ (exists ys, b_y (s_b p2) = 0%nat :: ys) /\ length (b_lines (s_b p2)) = 1%nat).
  { cbn [s_op] in H2. unfold s_initialize in H2. cbv zeta in H2. match type of H2 with (_, snd ?r) = _ => destruct r as [b' r'] eqn:Eb end. cbn [fst snd] in H2. injection H2 as <- Hr'. subst r'.
    apply b_plot_ok in Eb. subst b'. cbn [s_b s_viols b_with_lines b_with_y b_init b_y b_lines]. rewrite Y1, S1. cbn. eauto. }
  destruct (run_keep _ s_op no_reset _ (s_keep 0) ops2 p2 p3 F2 K2 H3) as [_ [[ys K3] L3]].
  cbn [s_op] in H4. unfold s_render in H4. destruct (negb (b_axis (s_b p3))); [discriminate|]. destruct (Nat.eqb _ 0); [discriminate|]. injection H4 as <-.
  cbn [s_b b_render b_with_lines b_lines]. rewrite K3. destruct (b_lines (s_b p3)) as [|l1 [|l2 ls]]; try discriminate. cbn [redraw].
  rewrite X. change (deref (s_b p3) 0) with (deref (s_b p3) 0). rewrite Hs in Y. cbn [violation_plot s_viols] in Y. rewrite Y. reflexivity.
Qed.
(** After [reset_data] the abscissa lacks the first point for good. *)
Lemma stairs_length : forall l c, length (stairs_y c l) = length (stairs_x l).
Proof. induction l as [|n l IH]; intros c; cbn; [reflexivity|]. rewrite IH. reflexivity. Qed.
Theorem violations_after_reset : forall p ops p1, Forall no_init ops -> p_run s_op (PReset :: ops) p = (p1, Ok tt) -> snd (s_op PInit p1) = Err ValueError.
Proof.
  intros p ops p1 Hf Hr. change (PReset :: ops) with ([PReset] ++ ops) in Hr. apply p_run_ok_app in Hr. destruct Hr as [p0 [H0 Hr]]. apply run_one in H0.
  cbn [s_op] in H0. injection H0 as <-.
  assert (F : Forall no_reset ops) by (eapply Forall_impl; [|exact Hf]; intros [| | |]; cbn; auto).
  assert (V0 : vinv [] [Some 0] (s_count p) (0%nat, []) (s_reset_data p)).
  { split; cbn [s_reset_data s_k s_count s_viols s_b fst snd length]; auto.
    - rewrite heap_alloc. cbn [b_reset_data b_heap]. lia.
    - apply (deref_alloc_new (b_reset_data (s_b p))). }
  destruct (vinv_run _ _ _ _ _ _ _ F V0 Hr) as [[_ _ _ X Y] _].
  cbn [s_op]. unfold s_initialize, b_plot. cbv zeta. cbn [b_x b_with_y b_init].
  change (deref (b_with_y (b_init (s_b p1)) _) (s_viols p1)) with (deref (s_b p1) (s_viols p1)). rewrite X, Y, !app_length, stairs_length. cbn [length].
  destruct (Nat.eqb_spec (0 + length (stairs_x (snd (violations_from (0%nat, []) ops)))) (1 + length (stairs_x (snd (violations_from (0%nat, []) ops))))); [lia|reflexivity].
Qed.

Theorem lengths_drawn : forall ops1 ops2 p, Forall no_reset (ops1 ++ PInit :: ops2) -> counted None (ops1 ++ PInit :: ops2) -> p_run e_op (ops1 ++ PInit :: ops2 ++ [PRender]) length_plot = (p, Ok tt) ->
  let f := fst (episodes (ops1 ++ PInit :: ops2)) in b_lines (e_b p) = [(xs (length f), map (fun l => Some (INR (length l))) f)].
Proof.
  intros ops1 ops2 p F Hc Hr. cbv zeta.
  replace (ops1 ++ PInit :: ops2 ++ [PRender]) with ((ops1 ++ PInit :: ops2) ++ [PRender]) in Hr by (rewrite <- app_assoc; reflexivity).
  apply p_run_ok_app in Hr. destruct Hr as [p3 [H3 H4]]. apply run_one in H4.
  destruct (lengths_right _ _ F Hc H3) as [_ _ X [h [_ [_ [Y D]]]]].
  assert (L : length (b_lines (e_b p3)) = 1%nat).
  { apply p_run_ok_app in H3. destruct H3 as [p1 [H1 H3]]. change (PInit :: ops2) with ([PInit] ++ ops2) in H3. apply p_run_ok_app in H3. destruct H3 as [p2 [H2 H3]]. apply run_one in H2.
    refine (run_keep _ e_op no_reset (fun q => length (b_lines (e_b q)) = 1%nat) _ ops2 p2 p3 _ _ H3).
    - intros q o q' Hn A E. destruct o as [ev| | |]; cbn [e_op] in *; [| | |contradiction].
      + destruct ev as [| |a|k st rf rw tm]; try (injection E as <-; exact A).
        unfold e_on_reset_begin, andthen in E. destruct (-1 <? e_no q)%Z; [|injection E as <-; exact A].
        unfold e_set_y in E. cbn [e_kind e_b] in E. destruct (e_kind q) as [h1 n1|h1 s1 n1]; [injection E as <-; exact A|].
        destruct (Nat.eqb n1 0); [discriminate|]. injection E as <-. exact A.
      + injection E as <-. unfold e_initialize. destruct (e_kind q); reflexivity.
      + unfold e_render in E. destruct (negb (b_axis (e_b q)) && _); [discriminate|]. injection E as <-. cbn [e_b b_render b_with_lines b_lines]. rewrite redraw_length. exact A.
    - apply Forall_app in F. destruct F as [_ F]. inversion F; assumption.
    - cbn [e_op] in H2. injection H2 as <-. unfold e_initialize. destruct (e_kind p1); reflexivity. }
  cbn [e_op] in H4. unfold e_render in H4. destruct (negb (b_axis (e_b p3)) && _); [discriminate|]. injection H4 as <-.
  cbn [e_b b_render b_with_lines b_lines]. rewrite Y. destruct (b_lines (e_b p3)) as [|l1 [|l2 ls]]; try discriminate. cbn [redraw]. rewrite X, D. reflexivity.
Qed.
