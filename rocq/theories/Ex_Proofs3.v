(** Proofs about the compensation voltages and the cascaded controllers of the examples. *)
From Verif Require Import PyBase PyBaseFacts PyDict PyDictFacts Transform_Model PhysSys_Model Motor_Model Ex_Model Ex_Model2 Ex_Spec Ex_Proofs Ex_Proofs2.
Local Open Scope string_scope.
Local Open Scope list_scope.
Local Open Scope R_scope.

Ltac ub H := repeat match type of H with bind ?x _ = Ok _ => let E := fresh "U" in destruct x eqn:E; [cbn [bind] in H|discriminate H] end.

Ltac dsplit H := match type of H with (let (_, _) := ?x in _) = _ => destruct x as [[[rsi w] exc] sl] eqn:Ux end.

Lemma ca_new_inv e ss refs c : ca_new e ss refs = Ok c ->
  ca_nominal c = en_nominal e /\ ca_psi c = dict_get "psi_e" (en_mp e) /\ ca_l c = dict_get "l_e_prime" (en_mp e) /\
  last_of (en_volt e) = Ok (ca_u c) /\ last_of (en_cur e) = Ok (ca_i c) /\ str_index "omega" (en_names e) = Ok (ca_omega c).
Proof.
  unfold ca_new. destruct (en_space e) as [low high| |]; try discriminate. intros H. ub H. injection H as <-. cbn. auto 10.
Qed.
(** Both feed forwards have this form: [w * nw * psi / nu] against [w * lw * psi / lu]. *)
Lemma ratio_iff w psi nw lw nu lu : psi <> 0 -> nu <> 0 -> lu <> 0 -> (w * nw * psi / nu * lu = w * lw * psi <-> w = 0 \/ nw * lu = lw * nu).
Proof.
  intros H1 H2 H3. split.
  - intros H. destruct (Req_dec w 0) as [W|W]; [left; exact W|right]. apply Rmult_eq_reg_l with (w * psi); [|apply Rmult_integral_contrapositive_currified; assumption].
    replace (w * psi * (nw * lu)) with (w * nw * psi / nu * lu * nu) by (field; exact H2). rewrite H. ring.
  - intros [->|H]; [field; exact H2|]. replace (w * nw * psi / nu * lu) with (w * psi * (nw * lu) / nu) by (field; exact H2). rewrite H. field. exact H2.
Qed.

Lemma cc_new_inv e ss refs c : cc_new e ss refs = Ok c ->
  cc_nominal c = en_nominal e /\ cc_psi c = get_or_0 "psie_e" (en_mp e) /\ cc_le c = get_or_0 "l_e_prime" (en_mp e) /\
  last_of (en_volt e) = Ok (cc_u c) /\ last_of (en_cur e) = Ok (cc_ie c) /\ str_index "omega" (en_names e) = Ok (cc_omega c) /\
  at_ (en_cur e) 0 = Ok (cc_ia c) /\ cc_limit c = en_limits e.
Proof.
  unfold cc_new. intros H. ub H. dsplit H. cbn [bind] in H. ub H. injection H as <-. cbn. auto 10.
Qed.
Lemma cc_new_plain e l refs c : en_extex e = false -> cc_new e (SList l) refs = Ok c ->
  exists rn rs, cc_rsi c = [cc_ia c; rs] /\ cc_om c = 0%nat /\ cc_exc c = None /\ make_stages e l l = Ok (cc_stages c) /\ length (cc_ref c) = length (cc_stages c) /\
    refs = [rn] /\ rn <> "i_e" /\ str_index rn (en_names e) = Ok rs /\ cc_ref_idx c = 0%nat.
Proof.
  intros X. unfold cc_new. rewrite X. intros H. ub H. dsplit H. cbn [bind] in U8.
  unfold py_assert in U8. destruct (Nat.leb (length refs) 1) eqn:L; [|discriminate]. cbn [bind] in U8. injection U8 as <- <- <- <-. cbn [bind] in H. ub H. injection H as <-. cbn [cc_rsi cc_ia cc_om cc_exc cc_stages cc_ref cc_ref_idx].
  apply Nat.leb_le in L. destruct refs as [|rn [|? ?]]; [discriminate| |cbn in L; lia].
  cbn in U4. destruct (not_ie rn) eqn:Ni; [|discriminate]. injection U4 as <-. cbn in U5. injection U5 as <-.
  exists rn, a6. rewrite Nat.add_0_r, Nat.add_0_r, repeat_length. repeat split; auto. intros ->. discriminate Ni.
Qed.

(** *** Two stages without excitation controller *)
Definition two_stage (rs : nat) (c : cas) : Prop :=
  cc_rsi c = [cc_ia c; rs] /\ cc_om c = 0%nat /\ cc_exc c = None /\ length (cc_stages c) = 2%nat /\ length (cc_ref c) = 2%nat.
Definition demand (b : base) (lo hi y : R) : R := if is_cont b then np_clip y lo hi else y.
Lemma clip_id x lo hi : lo <= x -> x <= hi -> np_clip x lo hi = x.
Proof. intros A B. unfold np_clip. rewrite Rmax_left by lra. apply Rmin_left. exact B. Qed.
Lemma is_cont_control b s r : is_cont (fst (b_control b s r)) = is_cont b.
Proof. destruct b; cbn; try reflexivity; unfold tp_control; cbn; destruct (_ || _); [|destruct (_ || _)]; reflexivity. Qed.
Lemma cc_refs_two rs c s r x : two_stage rs c -> cc_refs c s r = Ok x ->
  exists b0 b1 rv sa lo hi, cc_stages c = [b0; b1] /\ item r (cc_ref_idx c) = Ok rv /\ item s (cc_ia c) = Ok sa /\ item (cc_lolim c) (cc_ia c) = Ok lo /\ item (cc_hilim c) (cc_ia c) = Ok hi /\
    snd x = [demand b1 lo hi (snd (b_control b1 sa rv)); rv] /\
    exists b1', fst x = [b0; b1'] /\ is_cont b1' = is_cont b1 /\
      (is_cont b1 = true -> lo <= snd (b_control b1 sa rv) <= hi -> exists sw r0, item s rs = Ok sw /\ item r 0 = Ok r0 /\ b_integrate (fst (b_control b1 sa rv)) sw r0 = Ok b1') /\
      (~ (is_cont b1 = true /\ lo <= snd (b_control b1 sa rv) <= hi) -> b1' = fst (b_control b1 sa rv)).
Proof.
  intros (T1 & T2 & T3 & T4 & T5). unfold cc_refs. destruct (item r (cc_ref_idx c)) as [rv|] eqn:E1; [|discriminate]. cbn [bind].
  destruct (cc_ref c) as [|p0 [|p1 [|? ?]]]; try discriminate T5. destruct (cc_stages c) as [|b0 [|b1 [|? ?]]]; try discriminate T4. unfold cc_eidx. rewrite T2, T3. unfold set_back. cbn [length Nat.ltb Nat.leb Nat.sub list_set bind cc_range seq rev app cc_loop].
  unfold cc_stage. rewrite T2, T1. cbn [Nat.sub Nat.add at_ nth_error bind fst snd].
  destruct (item s (cc_ia c)) as [sa|] eqn:E2; [|discriminate]. cbn [bind]. change (item [p0; rv] 1) with (@Ok R rv). cbn [bind].
  destruct (b_control b1 sa rv) as [b1c y] eqn:E3. destruct (item (cc_lolim c) (cc_ia c)) as [lo|] eqn:E4; [|discriminate]. destruct (item (cc_hilim c) (cc_ia c)) as [hi|] eqn:E5; [|discriminate]. cbn [bind].
  pose proof (is_cont_control b1 sa rv) as IC. rewrite E3 in IC. cbn [fst] in IC.
  destruct (rleP lo y) as [L|L]; [destruct (rleP y hi) as [G|G]|]; [destruct (is_cont b1) eqn:Ci| |]; cbn [andb].
  - destruct (item s rs) as [sw|] eqn:E6; [|discriminate]. destruct (item r 0) as [r0|] eqn:E7; [|discriminate]. cbn [bind]. destruct (b_integrate b1c sw r0) as [b2|] eqn:E8; [|discriminate]. cbn [bind]. intros H. injection H as <-.
    exists b0, b1, rv, sa, lo, hi. rewrite E3. cbn [fst snd]. unfold demand. rewrite Ci, clip_id by assumption. repeat split; auto. exists b2. repeat split; auto.
    + destruct b1c; cbn in E8; try discriminate E8; injection E8 as <-; reflexivity.
    + intros _ _. exists sw, r0. auto.
    + intros N. exfalso. apply N. auto.
  - intros H. injection H as <-. exists b0, b1, rv, sa, lo, hi. rewrite E3. cbn [fst snd]. unfold demand. rewrite Ci. repeat split; auto. exists b1c. repeat split; auto. discriminate.
  - intros H. injection H as <-. exists b0, b1, rv, sa, lo, hi. rewrite E3. cbn [fst snd]. unfold demand. repeat split; auto. exists b1c. repeat split; auto. intros _ W. lra.
  - intros H. injection H as <-. exists b0, b1, rv, sa, lo, hi. rewrite E3. cbn [fst snd]. unfold demand. repeat split; auto. exists b1c. repeat split; auto. intros _ W. lra.
Qed.
Lemma cc_control_two rs c s r x : two_stage rs c -> cc_control c s r = Ok x ->
  two_stage rs (fst x) /\ cc_ia (fst x) = cc_ia c /\ cc_ref_idx (fst x) = cc_ref_idx c /\ cc_lolim (fst x) = cc_lolim c /\ cc_hilim (fst x) = cc_hilim c /\ map is_cont (cc_stages (fst x)) = map is_cont (cc_stages c).
Proof.
  intros T. unfold cc_control. destruct (cc_refs c s r) as [y|] eqn:E; [|discriminate]. cbn [bind]. destruct (cc_refs_two _ _ _ _ _ T E) as (b0 & b1 & rv & sa & lo & hi & S1 & _ & _ & _ & _ & R1 & b1' & S2 & S3 & _).
  pose proof T as (T1 & T2 & T3 & T4 & T5). rewrite S2, R1, T1, T3. cbn [at_ nth_error bind]. destruct (item s (cc_ia c)) as [s0|]; [|discriminate]. cbn [bind].
  match goal with |- context [item ?l 0] => change (item l 0) with (@Ok R (demand b1 lo hi (snd (b_control b1 sa rv)))) end. cbn [bind]. set (r0 := demand b1 lo hi (snd (b_control b1 sa rv))). clearbody r0.
  pose proof (is_cont_control b0 s0 r0) as IC. destruct (b_control b0 s0 r0) as [b u]. cbn [fst] in IC.
  match goal with |- bind ?m _ = _ -> _ => destruct m as [m1|] eqn:M; [|discriminate] end. cbn [bind]. intros H. injection H as <-. cbn [fst cc_with cc_ia cc_ref_idx cc_lolim cc_hilim cc_stages map list_set].
  assert (IC1 : is_cont (fst m1) = is_cont b0).
  { destruct (is_cont b0) eqn:C0; [|injection M as <-; exact IC]. destruct (cc_feedforward c s) as [ff|]; [|discriminate]. cbn [bind] in M. unfold limited in M. destruct (rle (cc_alow c) (u + ff) && rle (u + ff) (cc_ahigh c)).
    - destruct b; cbn in M; try discriminate M; injection M as <-; reflexivity.
    - injection M as <-. exact IC. }
  split; [repeat split; auto|]. rewrite S1. cbn [map]. rewrite IC1, S3. auto.
Qed.
Lemma cc_reset_two rs c : two_stage rs c -> two_stage rs (cc_reset c).
Proof. intros (T1 & T2 & T3 & T4 & T5). unfold two_stage, cc_reset, cc_with. cbn. rewrite map_length, T3. auto 10. Qed.
Lemma cc_run_two rs c h x : two_stage rs c -> cc_run c h = Ok x -> two_stage rs (fst x) /\ cc_ia (fst x) = cc_ia c.
Proof.
  revert c x. induction h as [|[s r|] h IH]; intros c x T.
  - cbn. intros H. injection H as <-. auto.
  - cbn [cc_run]. destruct (cc_control c s r) as [y|] eqn:E; [|discriminate]. cbn [bind]. destruct (cc_run (fst y) h) as [z|] eqn:F; [|discriminate]. cbn [bind]. intros H. injection H as <-. cbn [fst].
    destruct (cc_control_two _ _ _ _ _ T E) as (T' & I & _). destruct (IH _ _ T' F) as (T'' & I'). split; [exact T''|congruence].
  - cbn [cc_run]. intros H. exact (IH (cc_reset c) x (cc_reset_two _ _ T) H).
Qed.

(** *** Field oriented control *)
Lemma fold_max l : forall x, (forall y, In y (x :: l) -> y <= fold_left Rmax l x) /\ In (fold_left Rmax l x) (x :: l).
Proof.
  induction l as [|z l IH]; intros x; cbn [fold_left].
  - split; [intros y [<-|[]]; lra|left; reflexivity].
  - destruct (IH (Rmax x z)) as [A B]. split.
    + intros y [<-|[<-|I]]; [eapply Rle_trans; [apply Rmax_l|apply A; left; reflexivity]|eapply Rle_trans; [apply Rmax_r|apply A; left; reflexivity]|apply A; right; exact I].
    + destruct B as [B|B]; [|right; right; exact B]. rewrite <- B. unfold Rmax. destruct (Rle_dec x z); [right; left; reflexivity|left; reflexivity].
Qed.
Lemma fold_min l : forall x, (forall y, In y (x :: l) -> fold_left Rmin l x <= y) /\ In (fold_left Rmin l x) (x :: l).
Proof.
  induction l as [|z l IH]; intros x; cbn [fold_left].
  - split; [intros y [<-|[]]; lra|left; reflexivity].
  - destruct (IH (Rmin x z)) as [A B]. split.
    + intros y [<-|[<-|I]]; [eapply Rle_trans; [apply A; left; reflexivity|apply Rmin_l]|eapply Rle_trans; [apply A; left; reflexivity|apply Rmin_r]|apply A; right; exact I].
    + destruct B as [B|B]; [|right; right; exact B]. rewrite <- B. unfold Rmin. destruct (Rle_dec x z); [left; reflexivity|right; left; reflexivity].
Qed.
Lemma reqP x y : reflect (x = y) (req x y).
Proof. unfold req. destruct (Req_EM_T x y); constructor; assumption. Qed.
Lemma clip_eq x lo hi : lo <= hi -> (np_clip x lo hi = x <-> lo <= x <= hi).
Proof.
  intros H. split; [|intros [A B]; apply clip_id; assumption]. intros E. pose proof (clip_between x lo hi H) as B. rewrite E in B. exact B.
Qed.
Lemma unclipped_iff lo hi t : lo <= hi -> forallb (fun p => req (fst p) (snd p)) (combine (map (fun x => np_clip x lo hi) t) t) = true <-> Forall (between lo hi) t.
Proof.
  intros H. induction t as [|x t IH]; cbn [map combine forallb fst snd]; [split; [constructor|reflexivity]|]. rewrite andb_true_iff, IH. destruct (reqP (np_clip x lo hi) x) as [E|E].
  - apply (clip_eq x lo hi H) in E. split; [intros [_ F]; constructor; assumption|intros F; inversion F; auto].
  - split; [intros [F _]; discriminate|intros F; inversion F; subst; exfalso; apply E, clip_eq; assumption].
Qed.
Lemma clip_all lo hi t : Forall (between lo hi) t -> map (fun x => np_clip x lo hi) t = t.
Proof. induction 1 as [|x t [A B] _ IH]; [reflexivity|]. cbn. rewrite clip_id by assumption. f_equal. exact IH. Qed.

Section Shift.
Variables (m : R) (raw t : list R).
Hypothesis Sh : shifted raw = Ok t.
(** The shifted vector fits into [-m, m] exactly if some offset makes it fit. *)
Lemma shift_best : (exists k, Forall (between (- m) m) (map (fun x => x - k) raw)) <-> Forall (between (- m) m) t.
Proof.
  unfold shifted in Sh. destruct raw as [|x l] eqn:E; [discriminate|]. cbn [list_max list_min bind] in Sh. destruct (fold_max l x) as [A1 A2]. destruct (fold_min l x) as [B1 B2].
  set (mx := fold_left Rmax l x) in *. set (mn := fold_left Rmin l x) in *. injection Sh as Sh'. split.
  - intros (k & F). rewrite <- E in *. assert (T : t = map (fun x0 => x0 - 5 / 10 * (mx + mn)) raw) by (rewrite E, <- Sh'; reflexivity). rewrite T. apply Forall_forall. intros y I. apply in_map_iff in I. destruct I as (z & <- & I). rewrite Forall_forall in F.
    pose proof (F (mx - k) (in_map (fun x0 => x0 - k) _ _ A2)) as [_ F1]. pose proof (F (mn - k) (in_map (fun x0 => x0 - k) _ _ B2)) as [F2 _]. pose proof (A1 z I). pose proof (B1 z I). unfold between. lra.
  - intros F. exists (5 / 10 * (mx + mn)). rewrite <- Sh' in F. exact F.
Qed.
Lemma shift_offset : exists k, t = map (fun x => x - k) raw.
Proof.
  unfold shifted in Sh. destruct raw as [|x l]; [discriminate|]. cbn [list_max list_min bind] in Sh. injection Sh as <-. eexists. reflexivity.
Qed.
End Shift.
Lemma sincos2 e : sin e * sin e + cos e * cos e = 1.
Proof. pose proof (sin2_cos2 e) as H. unfold Rsqr in H. exact H. Qed.
(** A common offset of the phases is invisible in dq coordinates. *)
Lemma backward_offset x y eps k raw : backward x y eps = Ok raw -> abc_to_dq (map (fun z => z - k) raw) eps false = Ok [x; y].
Proof.
  unfold backward, q. cbn. intros H. injection H as <-. unfold abc_to_dq, q_inv, q, t_23, matvec, el_angle. cbn. rewrite cos_neg, sin_neg.
  assert (S3 : sqrt 3 * sqrt 3 = 3) by (apply sqrt_sqrt; lra). pose proof (sincos2 eps) as SC. set (s := sqrt 3) in *. set (c := cos eps) in *. set (z := sin eps) in *. clearbody s c z.
  match goal with |- Ok [_ * ?a - _ * ?b; _] = _ => replace a with (c * x - z * y) by field; replace b with (s * s / 3 * (z * x + c * y)) by field end. rewrite S3. f_equal. f_equal; [|f_equal].
  - replace (c * (c * x - z * y) - - z * (3 / 3 * (z * x + c * y))) with (x * (z * z + c * c)) by field. rewrite SC. ring.
  - replace (- z * (c * x - z * y) + c * (3 / 3 * (z * x + c * y))) with (y * (z * z + c * c)) by field. rewrite SC. ring.
Qed.
