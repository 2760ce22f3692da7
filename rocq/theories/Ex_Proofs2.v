(** Proofs about the continuous action controller of the examples. *)
From Verif Require Import PyBase PyBaseFacts PyDict PyDictFacts Transform_Model PhysSys_Model Motor_Model Ex_Model Ex_Model2 Ex_Spec Ex_Proofs.
Local Open Scope string_scope.
Local Open Scope list_scope.
Local Open Scope R_scope.

Lemma clip_between x lo hi : lo <= hi -> between lo hi (np_clip x lo hi).
Proof. intros H. unfold between, np_clip. split; [apply Rmin_glb; [apply Rmax_r|exact H]|apply Rmin_r]. Qed.
Lemma limited_between b lo hi a s r x : lo <= hi -> limited b lo hi a s r = Ok x -> between lo hi (snd x).
Proof.
  intros H. unfold limited. destruct (rleP lo a) as [L|L]; cbn [andb]; [destruct (rleP a hi) as [G|G]|].
  - destruct (b_integrate b s r); [|discriminate]. cbn. intros E. injection E as <-. split; assumption.
  - intros E. injection E as <-. apply clip_between, H.
  - intros E. injection E as <-. apply clip_between, H.
Qed.
Lemma list_set_length {A} i (v : A) l : length (list_set i v l) = length l.
Proof. revert i. induction l as [|x l IH]; intros [|i]; cbn; auto. Qed.
Lemma list_set_nth {A} i (v : A) l : (i < length l)%nat -> nth_error (list_set i v l) i = Some v.
Proof. revert i. induction l as [|x l IH]; intros [|i] H; cbn in *; try lia; [reflexivity|apply IH; lia]. Qed.
Lemma list_set_other {A} i j (v : A) l : i <> j -> nth_error (list_set i v l) j = nth_error l j.
Proof. revert i j. induction l as [|x l IH]; intros [|i] [|j] H; cbn; try reflexivity; try congruence. apply IH. congruence. Qed.
Lemma item_some l i v : item l i = Ok v <-> nth_error l i = Some v.
Proof. unfold item. destruct (nth_error l i); split; congruence. Qed.
Lemma item_lt l i v : item l i = Ok v -> (i < length l)%nat.
Proof. intros H. apply item_some in H. apply nth_error_Some. congruence. Qed.

(** What one call does, step by step *)
Definition ca_params (c c' : cac) : Prop :=
  ca_ref c' = ca_ref c /\ ca_ref_state c' = ca_ref_state c /\ ca_i c' = ca_i c /\ ca_u c' = ca_u c /\ ca_omega c' = ca_omega c /\
  ca_nominal c' = ca_nominal c /\ ca_psi c' = ca_psi c /\ ca_l c' = ca_l c /\ ca_low c' = ca_low c /\ ca_high c' = ca_high c /\
  length (ca_action c') = length (ca_action c) /\
  match ca_exc c, ca_exc c' with
  | None, None => True
  | Some x, Some x' => ex_ref x' = ex_ref x /\ ex_low x' = ex_low x /\ ex_high x' = ex_high x
  | _, _ => False
  end.
Lemma ca_params_refl c : ca_params c c.
Proof. unfold ca_params. destruct (ca_exc c); repeat split. Qed.
Lemma ca_params_trans a b c : ca_params a b -> ca_params b c -> ca_params a c.
Proof.
  unfold ca_params. intros (A1 & A2 & A3 & A4 & A5 & A6 & A7 & A8 & A9 & A10 & A11 & A12) (B1 & B2 & B3 & B4 & B5 & B6 & B7 & B8 & B9 & B10 & B11 & B12).
  repeat split; try congruence. destruct (ca_exc a), (ca_exc b), (ca_exc c); try tauto. intuition congruence.
Qed.
Lemma ca_control_inv c s r c' a : ca_control c s r = Ok (c', a) ->
  exists x y ff m, item s (ca_ref_state c) = Ok x /\ item r (ca_ref c) = Ok y /\ ca_feedforward c s = Ok ff /\
    limited (fst (b_control (ca_ctl c) x y)) (ca_low c) (ca_high c) (snd (b_control (ca_ctl c) x y) + ff) x y = Ok m /\
    ca_ctl c' = fst m /\ nth_error a 0 = Some (snd m) /\ ca_action c' = a /\ ca_params c c' /\
    match ca_exc c, ca_exc c' with
    | Some e, Some e' => exists xe ye me, item s (ca_i c) = Ok xe /\ item r (ex_ref e) = Ok ye /\
        limited (fst (b_control (ex_ctl e) xe ye)) (ex_low e) (ex_high e) (snd (b_control (ex_ctl e) xe ye)) xe ye = Ok me /\
        ex_ctl e' = fst me /\ nth_error a 1 = Some (snd me)
    | None, None => True
    | _, _ => False
    end.
Proof.
  unfold ca_control. destruct (item s (ca_ref_state c)) as [x|] eqn:E1; [|discriminate]. destruct (item r (ca_ref c)) as [y|] eqn:E2; [|discriminate]. cbn [bind].
  destruct (b_control (ca_ctl c) x y) as [b u] eqn:E3. destruct (ca_feedforward c s) as [ff|] eqn:E4; [|discriminate]. cbn [bind].
  destruct (limited b (ca_low c) (ca_high c) (u + ff) x y) as [m|] eqn:E5; [|discriminate]. cbn [bind].
  destruct (item (ca_action c) 0) as [v0|] eqn:E6; [|discriminate]. cbn [bind]. pose proof (item_lt _ _ _ E6) as L0.
  pose proof (list_set_nth 0 (snd m) (ca_action c) L0) as N0. pose proof (list_set_length 0 (snd m) (ca_action c)) as K0. set (a0 := list_set 0 (snd m) (ca_action c)) in *. clearbody a0.
  destruct (ca_exc c) as [e|] eqn:E7.
  - destruct (item s (ca_i c)) as [xe|] eqn:F1; [|discriminate]. destruct (item r (ex_ref e)) as [ye|] eqn:F2; [|discriminate]. cbn [bind].
    destruct (b_control (ex_ctl e) xe ye) as [be ue] eqn:F3. destruct (limited be (ex_low e) (ex_high e) ue xe ye) as [me|] eqn:F4; [|discriminate]. cbn [bind].
    destruct (item a0 1) as [v1|] eqn:F5; [|discriminate]. cbn [bind fst snd]. pose proof (item_lt _ _ _ F5) as L1.
    pose proof (list_set_nth 1 (snd me) a0 L1) as N1. pose proof (list_set_length 1 (snd me) a0) as K1. pose proof (list_set_other 1 0 (snd me) a0 ltac:(discriminate)) as N2. set (a1 := list_set 1 (snd me) a0) in *. clearbody a1.
    intros H. injection H as <- <-. exists x, y, ff, m. rewrite E3. cbn [fst snd ca_ctl ca_action ca_exc]. split; [reflexivity|]. split; [reflexivity|]. split; [reflexivity|]. split; [exact E5|]. split; [reflexivity|]. split; [congruence|]. split; [reflexivity|]. split.
    + unfold ca_params. cbn. rewrite E7. repeat split; congruence.
    + exists xe, ye, me. rewrite F3. cbn [fst snd ex_ctl]. auto.
  - cbn [bind fst snd]. intros H. injection H as <- <-. exists x, y, ff, m. rewrite E3. cbn [fst snd ca_ctl ca_action ca_exc]. split; [reflexivity|]. split; [reflexivity|]. split; [reflexivity|]. split; [exact E5|]. split; [reflexivity|]. split; [exact N0|]. split; [reflexivity|]. split; [|exact I].
    unfold ca_params. cbn. rewrite E7. repeat split; congruence.
Qed.
Lemma ca_reset_params c : ca_params c (ca_reset c).
Proof. unfold ca_params, ca_reset. cbn. destruct (ca_exc c); repeat split. Qed.

Lemma ca_run_bounded c h x : ca_low c <= ca_high c -> (forall e, ca_exc c = Some e -> ex_low e <= ex_high e) -> ca_run c h = Ok x ->
  forall a, In a (snd x) -> (exists v, nth_error a 0 = Some v /\ between (ca_low c) (ca_high c) v) /\
    forall e, ca_exc c = Some e -> exists v, nth_error a 1 = Some v /\ between (ex_low e) (ex_high e) v.
Proof.
  revert c x. induction h as [|[s r|] h IH]; intros c x L Le.
  - cbn. intros E. injection E as <-. intros a [].
  - cbn [ca_run]. destruct (ca_control c s r) as [[c' a0]|] eqn:E; [|discriminate]. cbn [bind fst snd]. destruct (ca_run c' h) as [y|] eqn:F; [|discriminate]. cbn [bind]. intros G. injection G as <-. cbn [snd].
    destruct (ca_control_inv _ _ _ _ _ E) as (u & v & ff & m & _ & _ & _ & Lm & _ & A0 & _ & P & X).
    intros a [<-|I].
    + split; [exists (snd m); split; [exact A0|eapply limited_between; eassumption]|]. intros e He. rewrite He in X. destruct (ca_exc c') as [e'|]; [|contradiction].
      destruct X as (xe & ye & me & _ & _ & Lme & _ & A1). exists (snd me). split; [exact A1|]. eapply limited_between; [|eassumption]. apply Le, He.
    + destruct P as (_ & _ & _ & _ & _ & _ & _ & _ & P1 & P2 & _ & P3).
      assert (Lc' : ca_low c' <= ca_high c') by (rewrite P1, P2; exact L).
      assert (Le' : forall e, ca_exc c' = Some e -> ex_low e <= ex_high e). { intros e He. rewrite He in P3. destruct (ca_exc c) as [e0|]; [|contradiction]. destruct P3 as (_ & -> & ->). apply Le. reflexivity. }
      destruct (IH c' y Lc' Le' F a I) as [B1 B2]. rewrite P1, P2 in B1. split; [exact B1|]. intros e He. rewrite He in P3. destruct (ca_exc c') as [e'|] eqn:Ec'; [|contradiction].
      destruct P3 as (_ & <- & <-). exact (B2 e' eq_refl).
  - cbn [ca_run]. intros E. destruct (ca_reset_params c) as (_ & _ & _ & _ & _ & _ & _ & _ & P1 & P2 & _ & P3).
    intros a I. destruct (IH (ca_reset c) x) with (a := a) as [B1 B2]; auto.
    + intros e He. rewrite He in P3. destruct (ca_exc c) as [e0|]; [|contradiction]. destruct P3 as (_ & -> & ->). apply Le. reflexivity.
    + rewrite P1, P2 in B1. split; [exact B1|]. intros e He. rewrite He in P3. destruct (ca_exc (ca_reset c)) as [e'|] eqn:Ec'; [|contradiction]. destruct P3 as (_ & <- & <-). exact (B2 e' eq_refl).
Qed.

(** *** anti-windup *)
Definition windup (p : pi) (B : R) : Prop := Rabs (pi_i p * pi_int p) <= B.
Section Windup.
Variables (lo hi E F pg ig : R).
Definition wbound : R := Rmax (Rabs lo) (Rabs hi) + Rabs pg * E + F.
Lemma limited_windup p ff x y m : pi_p p = pg -> pi_i p = ig -> Rabs (y - x) <= E -> Rabs ff <= F -> windup p wbound ->
  limited (BPi p) lo hi (pi_control p x y + ff) x y = Ok m ->
  exists p', fst m = BPi p' /\ pi_p p' = pg /\ pi_i p' = ig /\ pi_tau p' = pi_tau p /\ windup p' wbound.
Proof.
  intros Hp Hi He Hf W. unfold limited. destruct (rleP lo (pi_control p x y + ff)) as [L|L]; cbn [andb].
  2: { intros H. injection H as <-. exists p. auto. }
  destruct (rleP (pi_control p x y + ff) hi) as [G|G].
  2: { intros H. injection H as <-. exists p. auto. }
  cbn. intros H. injection H as <-. exists (pi_integrate p x y). cbn. repeat split; auto. unfold windup, pi_integrate. cbn.
  unfold pi_control in *. set (z := pi_i p * (pi_int p + (y - x) * pi_tau p)) in *. rewrite Hp in *.
  assert (A1 : Rabs (pg * (y - x)) <= Rabs pg * E). { rewrite Rabs_mult. apply Rmult_le_compat_l; [apply Rabs_pos|exact He]. }
  unfold wbound. pose proof (Rmax_l (Rabs lo) (Rabs hi)) as M1. pose proof (Rmax_r (Rabs lo) (Rabs hi)) as M2. set (M := Rmax (Rabs lo) (Rabs hi)) in *.
  set (q := pg * (y - x)) in *. set (Q := Rabs pg * E) in *. clearbody z q Q M.
  unfold Rabs in *. repeat destruct (Rcase_abs _); lra.
Qed.
End Windup.

(** The errors and the compensation voltages of a history stay within [E] and [F]. *)
Definition moderate (c : cac) (E F : R) (v : ev (list R)) : Prop :=
  match v with
  | ResetIt => True
  | Control s r => (forall x y, item s (ca_ref_state c) = Ok x -> item r (ca_ref c) = Ok y -> Rabs (y - x) <= E) /\
                   (forall f, ca_feedforward c s = Ok f -> Rabs f <= F)
  end.
Lemma feedforward_params c c' s : ca_params c c' -> ca_feedforward c' s = ca_feedforward c s.
Proof. intros (_ & _ & P1 & P2 & P3 & P4 & P5 & P6 & _). unfold ca_feedforward. rewrite P1, P2, P3, P4, P5, P6. reflexivity. Qed.
Lemma ca_run_windup c h p x E F : ca_ctl c = BPi p -> 0 <= E -> 0 <= F -> Forall (moderate c E F) h -> windup p (wbound (ca_low c) (ca_high c) E F (pi_p p)) ->
  ca_run c h = Ok x -> exists p', ca_ctl (fst x) = BPi p' /\ pi_p p' = pi_p p /\ pi_i p' = pi_i p /\ windup p' (wbound (ca_low c) (ca_high c) E F (pi_p p)).
Proof.
  intros Hc HE HF. revert c p x Hc. induction h as [|[s r|] h IH]; intros c p x Hc M W.
  - cbn. intros H. injection H as <-. exists p. auto.
  - cbn [ca_run]. destruct (ca_control c s r) as [[c' a0]|] eqn:Q; [|discriminate]. cbn [bind fst snd]. destruct (ca_run c' h) as [y|] eqn:G; [|discriminate]. cbn [bind]. intros H. injection H as <-. cbn [fst].
    destruct (ca_control_inv _ _ _ _ _ Q) as (u & v & ff & m & I1 & I2 & I3 & Lm & Cm & _ & _ & P & _). inversion M as [|? ? M1 M2]; subst. destruct M1 as [M1a M1b].
    rewrite Hc in Lm. cbn [b_control fst snd] in Lm.
    destruct (limited_windup (ca_low c) (ca_high c) E F (pi_p p) (pi_i p) p ff u v m eq_refl eq_refl (M1a _ _ I1 I2) (M1b _ I3) W Lm) as (p' & F1 & F2 & F3 & _ & W').
    pose proof P as (R1 & R2 & _ & _ & _ & _ & _ & _ & P1 & P2 & _).
    destruct (IH c' p' y) as (p'' & C1 & C2 & C3 & C4).
    + rewrite Cm. exact F1.
    + apply Forall_forall. intros w I. apply Forall_forall with (x := w) in M2; [|exact I]. destruct w as [s' r'|]; [|exact Logic.I]. destruct M2 as [A B]. split; [rewrite R1, R2; exact A|rewrite (feedforward_params c c' s' P); exact B].
    + rewrite P1, P2, F2. exact W'.
    + exact G.
    + exists p''. rewrite P1, P2, F2 in C4. rewrite F2 in C2. rewrite F3 in C3. auto.
  - cbn [ca_run]. intros H. inversion M as [|? ? _ M2]; subst. pose proof (ca_reset_params c) as P. pose proof P as (R1 & R2 & _ & _ & _ & _ & _ & _ & P1 & P2 & _).
    destruct (IH (ca_reset c) (pi_reset p) x) as (p'' & C1 & C2 & C3 & C4).
    + cbn. rewrite Hc. reflexivity.
    + apply Forall_forall. intros w I. apply Forall_forall with (x := w) in M2; [|exact I]. destruct w as [s' r'|]; [|exact Logic.I]. destruct M2 as [A B]. split; [rewrite R1, R2; exact A|rewrite (feedforward_params c (ca_reset c) s' P); exact B].
    + unfold windup, pi_reset. cbn. rewrite Rmult_0_r, Rabs_R0. unfold wbound. pose proof (Rabs_pos (ca_low c)). pose proof (Rmax_l (Rabs (ca_low c)) (Rabs (ca_high c))). pose proof (Rabs_pos (pi_p p)). assert (0 <= Rabs (pi_p p) * E) by (apply Rmult_le_pos; assumption). lra.
    + exact H.
    + exists p''. rewrite P1, P2 in C4. exact (conj C1 (conj C2 (conj C3 C4))).
Qed.

(** *** dead time *)
Lemma dead_run_alias c k l h c' d' out : (0 < k + length l)%nat -> dead_run c (repeat Shared k ++ map Own (rev l)) h = Ok (c', d', out) ->
  exists acts, ca_run c (controls h) = Ok (c', acts) /\ out = firstn (length h) l ++ skipn (length l) acts /\ length acts = length h.
Proof.
  revert c k l c' d' out. induction h as [|[s r] h IH]; intros c k l c' d' out N.
  - cbn. intros H. injection H as <- <- <-. exists []. rewrite skipn_nil. auto.
  - cbn [dead_run]. unfold dead_cycle. destruct (ca_control c s r) as [[c1 a]|] eqn:Q; [|discriminate]. cbn [bind fst snd]. rewrite rev_app_distr, <- map_rev, rev_involutive.
    destruct (ca_control_inv _ _ _ _ _ Q) as (_ & _ & _ & _ & _ & _ & _ & _ & _ & _ & A & _).
    assert (RS : forall j, rev (repeat Shared j) = repeat Shared j). { intros j. induction j as [|j IHj]; [reflexivity|]. cbn. rewrite IHj. clear IHj. induction j as [|j IHj]; [reflexivity|]. cbn. f_equal. exact IHj. }
    destruct l as [|a0 l].
    + cbn [map app]. rewrite RS. destruct k as [|k]; [cbn in N; lia|]. cbn [repeat].
      cbn [bind fst snd slot_value]. rewrite RS. change (Shared :: repeat Shared k) with (repeat Shared (S k)). intros H.
      destruct (dead_run c1 (repeat Shared (S k)) h) as [[[c2 d2] out2]|] eqn:G in H; [|discriminate H]. cbn [bind fst snd] in H. injection H as <- <- <-.
      specialize (IH c1 (S k) [] c2 d2 out2 ltac:(cbn; lia)). cbn [rev map] in IH. rewrite app_nil_r in IH. destruct (IH G) as (acts & E1 & E2 & E3).
      exists (a :: acts). cbn [controls map ca_run fst snd]. rewrite Q. cbn [bind fst snd]. unfold controls in E1. rewrite E1. cbn [bind fst snd]. rewrite firstn_nil in *. cbn [app skipn length] in *. rewrite E2, A, E3. auto.
    + cbn [map app]. cbn [bind fst snd slot_value]. rewrite rev_app_distr, !RS, <- map_rev. intros H.
      change (Shared :: repeat Shared k ++ map Own (rev l)) with (repeat Shared (S k) ++ map Own (rev l)) in H.
      destruct (dead_run c1 (repeat Shared (S k) ++ map Own (rev l)) h) as [[[c2 d2] out2]|] eqn:G in H; [|discriminate H]. cbn [bind fst snd] in H. injection H as <- <- <-.
      destruct (IH c1 (S k) l c2 d2 out2 ltac:(cbn; lia) G) as (acts & E1 & E2 & E3).
      exists (a :: acts). cbn [controls map ca_run fst snd]. rewrite Q. cbn [bind fst snd]. unfold controls in E1. rewrite E1. cbn [bind fst snd firstn skipn length app]. rewrite E2, E3. auto.
Qed.
