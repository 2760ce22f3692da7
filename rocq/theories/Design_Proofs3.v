(** Proofs about the automatic controller design for DC motors: gains and verdicts. *)
From Verif Require Import PyBase PyBaseFacts PyDict PyDictFacts Transform_Model PhysSys_Model Preset_Model Preset_Props Full_Spec
  Ex_Model Ex_Model2 Ex_Spec Ex_Proofs Ex_Proofs2 Ex_Proofs3 Ex_Proofs5 Design_Model Design_Spec Design_Proofs Design_Proofs2.
From Coq Require Import Lia Lra.
Local Open Scope string_scope.
Local Open Scope list_scope.
Local Open Scope R_scope.

(** ** Usable controllers *)
Lemma usable_plain t f m d c lo hi : is_dc m = true -> m <> ExtExDc -> cascade_task t = true -> shape t f m d -> -1 <= lo -> lo <= hi -> hi <= 1 ->
  cc_inv (length (en_names (dc_env d))) (negb f) lo hi c -> usable d (MCasc c).
Proof.
  intros D X T S A B C V h F. assert (L : length (dc_refs d) = 1%nat) by (rewrite (sh_refs _ _ _ _ S); destruct t; try discriminate T; reflexivity). rewrite L in F.
  destruct (cc_total _ _ _ _ B h c V F) as (x & E & Fx). cbn [actions]. rewrite E. cbn [bind]. eexists. split; [reflexivity|]. revert Fx. apply Forall_impl. intros a (v & -> & Hv).
  rewrite (sh_space _ _ _ _ S). destruct f; cbn [negb] in Hv; destruct m; try contradiction; try discriminate D; cbn; eauto; destruct Hv; (split; [|reflexivity]); repeat (apply Forall2_cons || apply Forall2_nil); cbn; lra.
Qed.
Lemma usable_exc t f d c lo hi lo1 hi1 w : cascade_task t = true -> shape t f ExtExDc d -> lo <= hi -> -1 <= lo1 -> lo1 <= hi1 -> hi1 <= 1 ->
  xc_inv (length (en_names (dc_env d))) (negb f) w lo hi lo1 hi1 c -> usable d (MCasc c).
Proof.
  intros T S A B C C' V h F. assert (L : length (dc_refs d) = 1%nat) by (rewrite (sh_refs _ _ _ _ S); destruct t; try discriminate T; reflexivity). rewrite L in F.
  destruct (xc_total _ _ _ _ _ _ _ A C h c V F) as (x & E & Fx). cbn [actions]. rewrite E. cbn [bind]. eexists. split; [reflexivity|]. revert Fx. apply Forall_impl. intros a (v & v1 & -> & Hv).
  rewrite (sh_space _ _ _ _ S). destruct f; cbn [negb] in Hv; destruct Hv as [H1 H2]; cbn; [repeat (apply Forall2_cons || apply Forall2_nil); assumption|]. destruct H1, H2. split; [|reflexivity]. repeat (apply Forall2_cons || apply Forall2_nil); cbn; lra.
Qed.

(** ** Gains *)
Lemma gains_type p i s : st_type (pi_gains p i s) = st_type s.
Proof. reflexivity. Qed.
Definition out (f : bool) : stage := {| st_type := if f then "three_point" else "pi_controller"; st_par := [] |}.
Definition pi_stage : stage := {| st_type := "pi_controller"; st_par := [] |}.
Lemma gains_out d m a inner i prev f : (i < 2)%nat -> exists pr s, casc_gains d m a inner i prev (out f) = Ok (pr, s) /\ first_stage f s.
Proof. intros I. unfold casc_gains. destruct f; cbn; [do 2 eexists; split; reflexivity|]. destruct i as [|[|]]; [| |lia]; cbn; do 2 eexists; split; reflexivity. Qed.
Lemma gains_pi d m a inner i prev : (i < 2)%nat -> exists pr s, casc_gains d m a inner i prev pi_stage = Ok (pr, s) /\ st_type s = "pi_controller".
Proof. intros I. exact (gains_out d m a inner i prev false I). Qed.
Lemma loop_two d m a f : exists s0 s1, casc_loop d m a 2 0 None [out f; pi_stage] = Ok [s0; s1] /\ first_stage f s0 /\ st_type s1 = "pi_controller".
Proof.
  cbn [casc_loop]. destruct (gains_out d m a false 0 None f ltac:(lia)) as (pr & s0 & -> & F). cbn [bind fst snd]. destruct (gains_pi d m a false 1 pr ltac:(lia)) as (pr' & s1 & -> & T). cbn [bind fst snd]. eauto.
Qed.
Lemma is_box_space t f m d : shape t f m d -> is_box (en_space (dc_env d)) = negb f.
Proof. intros S. rewrite (sh_space _ _ _ _ S). destruct f, m; reflexivity. Qed.
Lemma design_out t f m d : shape t f m d -> (if is_box (en_space (dc_env d)) then "pi_controller" else "three_point") = st_type (out f).
Proof. intros S. rewrite (is_box_space _ _ _ _ S). destruct f; reflexivity. Qed.
Lemma design_cascade t f m d : is_dc m = true -> cascade_task t = true -> shape t f m d ->
  dc_design d = Ok ("cascaded_controller", match m with ExtExDc => SPair [out f; pi_stage] [out f] | _ => SList [out f; pi_stage] end).
Proof.
  intros D T S. unfold dc_design. rewrite (design_out _ _ _ _ S), (sh_refs _ _ _ _ S), (sh_extex _ _ _ _ S). destruct t, m; try discriminate; reflexivity.
Qed.
Lemma typed_bare t f m d : shape t f m d -> typed d = match dc_access d, m with Bare, ExtExDc => true | _, _ => false end.
Proof. intros S. unfold typed. rewrite (sh_extex _ _ _ _ S). destruct (dc_access d), m; reflexivity. Qed.
Lemma gain_exc t f d a : shape t f ExtExDc d -> exists s0 s1 se, dc_gain d a KCasc (SPair [out f; pi_stage] [out f]) = Ok (SPair [s0; s1] [se]) /\ first_stage f s0 /\ st_type s1 = "pi_controller" /\ first_stage f se.
Proof.
  intros S. assert (D : is_dc ExtExDc = true) by reflexivity. destruct (read_lims_ok _ _ _ _ D S) as (l & Rl). unfold dc_gain. rewrite Rl. cbn [bind]. unfold split_stages. rewrite (typed_bare _ _ _ _ S).
  destruct (sh_mp _ _ _ _ S) as (_ & _ & (le & Le & _) & _). destruct (loop_two d l a f) as (s0 & s1 & Lp & F0 & T1).
  assert (W : exists x0 x1, (do s0 <- at_ [out f; pi_stage] 0; do x <- casc_gains d l a true 0 None s0; do s1 <- at_ [out f] 0; do y <- casc_gains d l a true 1 (fst x) s1; Ok (SPair (list_set 0 (snd x) [out f; pi_stage]) (list_set 0 (snd y) [out f]))) = Ok (SPair [x0; pi_stage] [x1]) /\ first_stage f x0 /\ first_stage f x1).
  { cbn [at_ nth_error bind]. destruct (gains_out d l a true 0 None f ltac:(lia)) as (pr & x0 & -> & Fx). cbn [bind fst snd]. destruct (gains_out d l a true 1 pr f ltac:(lia)) as (pr' & x1 & -> & Fx'). cbn [bind fst snd list_set]. eauto. }
  destruct W as (x0 & x1 & W & W0 & W1). destruct (dc_access d).
  - rewrite (is_box_space _ _ _ _ S). destruct f; cbn [negb bind].
    + rewrite Lp. cbn [bind]. do 3 eexists. split; [reflexivity|]. repeat split; auto.
    + unfold exc_gains, dict_item. rewrite Le. cbn [bind at_ nth_error list_set]. rewrite Lp. cbn [bind]. do 3 eexists. split; [reflexivity|]. repeat split; auto.
  - cbn [bind]. rewrite W. do 3 eexists. split; [reflexivity|]. repeat split; auto.
  - cbn [bind]. rewrite W. do 3 eexists. split; [reflexivity|]. repeat split; auto.
Qed.
Lemma gain_plain t f m d a : is_dc m = true -> m <> ExtExDc -> shape t f m d -> exists s0 s1, dc_gain d a KCasc (SList [out f; pi_stage]) = Ok (SList [s0; s1]) /\ first_stage f s0 /\ st_type s1 = "pi_controller".
Proof.
  intros D X S. destruct (read_lims_ok _ _ _ _ D S) as (l & Rl). unfold dc_gain. rewrite Rl. cbn [bind]. unfold split_stages. rewrite (typed_bare _ _ _ _ S).
  destruct (loop_two d l a f) as (s0 & s1 & Lp & F0 & T1).
  assert (Ty : (match dc_access d, m with Bare, ExtExDc => true | _, _ => false end) = false) by (destruct (dc_access d), m; try reflexivity; contradiction). rewrite Ty. cbn [bind length]. rewrite Lp. cbn [bind]. eauto.
Qed.
Lemma cascade_made t f m d a : is_dc m = true -> cascade_task t = true -> shape t f m d -> exists c, make d None a true = Some (Ok c) /\ usable d c.
Proof.
  intros D T S. unfold make. rewrite (design_cascade _ _ _ _ D T S). cbn [class_of has existsb String.eqb Ascii.eqb Bool.eqb orb].
  destruct (read_lims_ok _ _ _ _ D S) as (l & Rl). rewrite Rl. cbn [bind].
  assert (X : m = ExtExDc \/ m <> ExtExDc) by (destruct m; auto; right; discriminate). destruct X as [->|Xn].
  - destruct (gain_exc _ _ _ a S) as (s0 & s1 & se & -> & F0 & T1 & Fe). cbn [bind]. destruct (new_exc t f d s0 s1 se T S F0 T1 Fe) as (c & lo & hi & lo1 & hi1 & N & V & B1 & B2 & B3 & B4 & _). exists (MCasc c).
    split; [|exact (usable_exc _ _ _ _ _ _ _ _ _ T S B1 B2 B3 B4 V)]. unfold construct. cbn [tl existsb]. rewrite T1. cbn [has existsb String.eqb Ascii.eqb Bool.eqb orb bind]. rewrite N. reflexivity.
  - assert (Ms : (match m with ExtExDc => SPair [out f; pi_stage] [out f] | _ => SList [out f; pi_stage] end) = SList [out f; pi_stage]) by (destruct m; try reflexivity; contradiction). rewrite Ms.
    destruct (gain_plain _ _ _ _ a D Xn S) as (s0 & s1 & -> & F0 & T1). cbn [bind]. destruct (new_plain t f m d s0 s1 D Xn T S F0 T1) as (c & lo & hi & N & V & B1 & B2 & B3). exists (MCasc c). split; [|exact (usable_plain _ _ _ _ _ _ _ D Xn T S B1 B2 B3 V)].
    unfold construct. cbn [tl existsb]. rewrite T1. cbn [has existsb String.eqb Ascii.eqb Bool.eqb orb bind]. rewrite N. reflexivity.
Qed.

(** ** Current control *)
Lemma design_current f m d : is_dc m = true -> shape CurrentControl f m d ->
  dc_design d = Ok (st_type (out f), match m with ExtExDc => SPair [out f] [out f] | _ => SList [out f] end).
Proof.
  intros D S. unfold dc_design. rewrite (design_out _ _ _ _ S), (sh_refs _ _ _ _ S), (sh_extex _ _ _ _ S). destruct m; try discriminate D; destruct f; reflexivity.
Qed.
Lemma class_out f : class_of (st_type (out f)) = Some (if f then KDisc else KCont).
Proof. destruct f; reflexivity. Qed.
Lemma auto_ok f m d a s : is_dc m = true -> shape CurrentControl f m d -> st_type s = "pi_controller" -> exists s', auto_current (dc_env d) (dc_series d) a s = Ok s' /\ st_type s' = "pi_controller".
Proof.
  intros D S T. destruct (index_om _ _ _ _ D S) as (O1 & O2 & O3 & O4 & O5 & O6). pose proof (sh_bounds _ _ _ _ S) as (B1 & B2 & _). destruct (sh_mp _ _ _ _ S) as ((la & La & _) & _ & P).
  unfold auto_current, dict_item. rewrite La, (sh_arm _ _ _ _ S), (sh_v0 _ _ _ _ S), (sh_series _ _ _ _ S), T. cbn [bind].
  assert (V4 : (match m with ExtExDc => 4 | _ => vlt m end < length (en_names (dc_env d)))%nat) by (destruct m; try exact O6; cbn in O6; lia).
  assert (K : exists l, (if match m with SeriesDc => true | _ => false end then do le <- match dict_get "l_e" (en_mp (dc_env d)) with Some v => Ok v | None => Err KeyError end; Ok (la + le) else Ok la) = Ok l).
  { destruct m; try (eexists; reflexivity). destruct P as ((le & -> & _) & _). eexists. reflexivity. }
  destruct K as (l & ->). cbn [bind]. itm (en_limits (dc_env d)) (arm m) x. itm (en_limits (dc_env d)) (match m with ExtExDc => 4 | _ => vlt m end)%nat y. eexists. split; [reflexivity|]. cbn. exact T.
Qed.
Lemma current_index f m d : is_dc m = true -> shape CurrentControl f m d -> exists rn rest, dc_refs d = rn :: rest /\ not_ie rn = true /\ is_ie rn = false /\ str_index rn (en_names (dc_env d)) = Ok 2%nat /\ rest = match m with ExtExDc => ["i_e"] | _ => [] end.
Proof. intros D S. rewrite (sh_refs _ _ _ _ S), (sh_names _ _ _ _ S). destruct m; try discriminate D; cbn; do 2 eexists; repeat (split; [reflexivity|]); reflexivity. Qed.
Lemma flux_ok f m d : is_dc m = true -> shape CurrentControl f m d -> (exists v, dict_get "psi_e" (en_mp (dc_env d)) = Some v /\ v <> 0) \/ exists l, dict_get "l_e_prime" (en_mp (dc_env d)) = Some l.
Proof.
  intros D S. destruct (sh_mp _ _ _ _ S) as (_ & _ & P). destruct m; try discriminate D.
  - destruct P as (v & A & B). left. exists v. split; [exact A|lra].
  - right. destruct P as (_ & _ & (v & A & _)). eauto.
  - right. destruct P as (_ & _ & (v & A & _)). eauto.
  - right. destruct P as (_ & _ & (v & A & _)). eauto.
Qed.
Lemma attribute_ok d : dc_access d <> Opaque -> attribute (dc_access d) = Ok tt.
Proof. destruct (dc_access d); cbn; intros H; try reflexivity. contradiction. Qed.
Lemma current_has f m d : is_dc m = true -> shape CurrentControl f m d -> (has "i" (dc_refs d) || has "i_a" (dc_refs d))%bool = true.
Proof. intros D S. rewrite (sh_refs _ _ _ _ S). destruct m; try discriminate D; reflexivity. Qed.

Lemma current_disc m d a : is_dc m = true -> shape CurrentControl true m d -> exists r, make d None a true = Some r /\
  match dc_access d, m with
  | Opaque, _ => r = Err AttributeError | _, ShuntDc => r = Err AssertionError | _, ExtExDc => r = Err TypeError
  | _, _ => exists c, r = Ok c /\ usable d c
  end.
Proof.
  intros D S. unfold make. rewrite (design_current _ _ _ D S), class_out. destruct (read_lims_ok _ _ _ _ D S) as (l & Rl). rewrite Rl. cbn [bind].
  assert (G : dc_gain d a KDisc (match m with ExtExDc => SPair [out true] [out true] | _ => SList [out true] end) = Ok (match m with ExtExDc => SPair [out true] [out true] | _ => SList [out true] end)).
  { unfold dc_gain. rewrite Rl. cbn [bind]. unfold split_stages. rewrite (typed_bare _ _ _ _ S), (is_box_space _ _ _ _ S). destruct (dc_access d), m; try discriminate D; reflexivity. }
  rewrite G. cbn [bind]. eexists. split; [reflexivity|]. unfold construct. rewrite (is_box_space _ _ _ _ S), (sh_wrapped _ _ _ _ S). cbn [negb py_assert bind].
  assert (O : dc_access d = Opaque \/ dc_access d <> Opaque) by (destruct (dc_access d); auto; right; discriminate). destruct O as [->|O]; [reflexivity|]. rewrite (attribute_ok _ O). cbn [bind].
  destruct (current_index _ _ _ D S) as (rn & rest & R1 & R2 & R2' & R3 & R4).
  assert (A : action_count (en_space (dc_env d)) = Ok 4%Z) by (rewrite (sh_space _ _ _ _ S); destruct m; reflexivity).
  assert (Cases : (m = ShuntDc) \/ (m = ExtExDc) \/ (m = PermExDc \/ m = SeriesDc)) by (destruct m; try discriminate D; auto). destruct Cases as [->|[->|Cases]].
  - cbn. destruct (dc_access d); try contradiction; reflexivity.
  - cbn [negb py_assert bind]. unfold da_new. rewrite (sh_space _ _ _ _ S), R1. cbn [first_where]. rewrite R2. cbn [bind at_ nth_error]. rewrite R3. cbn [bind]. rewrite (sh_fld _ _ _ _ S), (sh_extex _ _ _ _ S), R4. cbn [bind existsb]. rewrite R2'. cbn [orb is_ie String.eqb Ascii.eqb Bool.eqb py_assert bind].
    destruct (make_three (dc_env d) 4 true A ltac:(lia)) as (b & Eb & _). unfold out. unfold stage0 in Eb. rewrite Eb. cbn. destruct (dc_access d); try contradiction; reflexivity.
  - assert (W : match m with ShuntDc => true | _ => false end = false) by (destruct Cases; subst; reflexivity). rewrite W. cbn [negb py_assert bind].
    destruct (make_three (dc_env d) 4 false A ltac:(lia)) as (b & Eb & Vb).
    assert (N : exists c, da_new (dc_env d) (SList [out true]) (dc_refs d) = Ok c /\ da_ref c = 0%nat /\ da_ref_state c = 2%nat /\ da_ctl c = b /\ da_exc c = None).
    { assert (Sp : en_space (dc_env d) = SDisc 4) by (rewrite (sh_space _ _ _ _ S); destruct Cases; subst; reflexivity).
      assert (Ex : en_extex (dc_env d) = false) by (rewrite (sh_extex _ _ _ _ S); destruct Cases; subst; reflexivity).
      assert (Rr : rest = []) by (destruct Cases; subst; reflexivity). unfold da_new. rewrite Sp, R1, Rr. cbn [first_where]. rewrite R2. cbn [bind at_ nth_error]. rewrite R3. cbn [bind]. rewrite (sh_fld _ _ _ _ S), Ex. cbn [bind length Nat.leb py_assert]. unfold out. unfold stage0 in Eb. rewrite Eb. cbn [bind]. eexists. split; [reflexivity|]. cbn. auto. }
    destruct N as (c & N & N1 & N2 & N3 & N4).
    assert (Ms : (match m with ExtExDc => SPair [out true] [out true] | _ => SList [out true] end) = SList [out true]) by (destruct Cases; subst; reflexivity). rewrite Ms, N. cbn [bind].
    assert (Us : usable d (MDisc c)).
    { intros h F. destruct (da_total (length (en_names (dc_env d))) (length (dc_refs d)) h c) as (x & Ex); try congruence.
      - rewrite N2. rewrite (sh_names _ _ _ _ S). destruct Cases; subst; cbn; lia.
      - rewrite N1, R1. cbn. lia.
      - cbn [actions]. rewrite Ex. cbn [bind]. eexists. split; [reflexivity|]. apply Forall_forall. intros ac I.
        assert (Vc : valid_base 4 (da_ctl c)) by congruence. destruct (da_run_valid 4 c h x Vc N4 Ex ac I) as (v & -> & Hv).
        rewrite (sh_space _ _ _ _ S). destruct Cases; subst; cbn; eauto. }
    destruct Cases; subst m; destruct (dc_access d); try contradiction; eauto.
Qed.
Lemma current_cont m d a : is_dc m = true -> shape CurrentControl false m d -> exists r, make d None a true = Some r /\
  match dc_access d, m with
  | Opaque, _ => r = Err AttributeError | _, ShuntDc => r = Err AssertionError | Forwarding, ExtExDc => r = Err AttributeError
  | _, _ => exists c, r = Ok c /\ usable d c
  end.
Proof.
  intros D S. unfold make. rewrite (design_current _ _ _ D S), class_out. destruct (read_lims_ok _ _ _ _ D S) as (l & Rl). rewrite Rl. cbn [bind].
  pose proof (current_has _ _ _ D S) as H1. destruct (auto_ok _ _ _ a (out false) D S eq_refl) as (s' & Au & Ts).
  assert (O : dc_access d = Opaque \/ dc_access d <> Opaque) by (destruct (dc_access d); auto; right; discriminate).
  destruct O as [O|O].
  { eexists. split; [reflexivity|]. unfold dc_gain, split_stages. rewrite Rl. cbn [bind]. rewrite (typed_bare _ _ _ _ S), O. cbn [bind].
    unfold cont_gains. rewrite O, H1. destruct m; try discriminate D; cbn [bind at_ nth_error orb attribute]; reflexivity. }
  destruct (current_index _ _ _ D S) as (rn & rest & R1 & R2 & R2' & R3 & R4). destruct (index_om _ _ _ _ D S) as (O1 & O2 & O3 & O4 & O5 & O6). pose proof (sh_bounds _ _ _ _ S) as B.
  assert (Lr : length (dc_refs d) = match m with ExtExDc => 2%nat | _ => 1%nat end) by (rewrite R1, R4; destruct m; reflexivity).
  assert (Ln : (2 < length (en_names (dc_env d)))%nat) by (apply (index_lt rn); exact R3).
  destruct (scaled_ok (dc_env d) _ (vlt m) (-1) B O6) as (k & K1 & K2 & K3). assert (Kk : -1 * k <= 1 * k) by lra.
  assert (X : m = ExtExDc \/ m <> ExtExDc) by (destruct m; auto; right; discriminate). destruct X as [->|Xn].
  - destruct (dc_access d) eqn:Ac; [| |contradiction].
    + destruct (sh_mp _ _ _ _ S) as (_ & _ & (le & Le & _) & _).
      assert (G : exists se, dc_gain d a KCont (SPair [out false] [out false]) = Ok (SPair [s'] [se]) /\ st_type se = "pi_controller").
      { unfold dc_gain, split_stages, exc_gains, dict_item, cont_gains. rewrite Rl, (typed_bare _ _ _ _ S), Ac, (is_box_space _ _ _ _ S), Le, H1. cbn [bind negb at_ nth_error list_set orb attribute]. rewrite Au. cbn [bind list_set]. eexists. split; reflexivity. }
      destruct G as (se & -> & Te). cbn [bind]. unfold construct. rewrite (is_box_space _ _ _ _ S), (sh_wrapped _ _ _ _ S), Ac. cbn [negb py_assert bind attribute].
      destruct (make_pi (dc_env d) s' false false Ts) as (b0 & M0 & C0). destruct (make_pi (dc_env d) se false false Te) as (b1 & M1 & C1).
      assert (Ue : str_index "u_e" (en_names (dc_env d)) = Ok 5%nat) by (rewrite (sh_names _ _ _ _ S); reflexivity). change (vlt ExtExDc) with 5%nat in *.
      unfold ca_new. rewrite (sh_space _ _ _ _ S), R1. cbn [first_where]. rewrite R2. cbn [bind at_ nth_error]. rewrite R3. cbn [bind]. rewrite (sh_fld _ _ _ _ S), (sh_v _ _ _ _ S), O1. cbn [bind item nth_error]. change (vlt ExtExDc) with 5%nat. rewrite K1, (K3 1), (sh_extex _ _ _ _ S), R4. cbn [bind existsb first_where]. rewrite R2'.
      cbn [orb is_ie String.eqb Ascii.eqb Bool.eqb py_assert bind]. rewrite M1, M0. cbn [bind]. rewrite Ue. cbn [bind]. rewrite K1, (K3 1). cbn [bind fst snd length repeat].
      eexists. split; [reflexivity|]. eexists. split; [reflexivity|]. intros h F. rewrite Lr in F.
      match goal with |- exists l, actions (MCont ?c) h = _ /\ _ => set (cc := c) end.
      assert (V : ca_inv (length (en_names (dc_env d))) 2 2 true (-1 * k) (1 * k) (-1 * k) (1 * k) cc).
      { constructor; cbn; try reflexivity; try lia; try assumption; [destruct B; assumption|apply (flux_ok false ExtExDc d D S)|eexists; split; [reflexivity|]; cbn; repeat split; auto; lia]. }
      clearbody cc. destruct (ca_total _ _ _ _ _ _ _ _ Kk Kk h cc V F) as (x & Ex & Fx). cbn [actions]. rewrite Ex. cbn [bind]. eexists. split; [reflexivity|]. revert Fx. apply Forall_impl. intros ac (La & v & E0 & [Bv Bv'] & v1 & E1 & [Bv1 Bv1']).
      rewrite (sh_space _ _ _ _ S). destruct ac as [|y0 [|y1 [|]]]; try discriminate La. cbn in E0, E1. injection E0 as ->. injection E1 as ->. cbn. split; [|reflexivity]. repeat (apply Forall2_cons || apply Forall2_nil); cbn; lra.
    + eexists. split; [reflexivity|]. unfold dc_gain, split_stages. rewrite Rl. cbn [bind]. rewrite (typed_bare _ _ _ _ S), Ac, H1. reflexivity.
  - assert (Ms : (match m with ExtExDc => SPair [out false] [out false] | _ => SList [out false] end) = SList [out false]) by (destruct m; try reflexivity; contradiction). rewrite Ms.
    assert (G : dc_gain d a KCont (SList [out false]) = Ok (SList [s'])).
    { unfold dc_gain, split_stages, cont_gains. rewrite Rl, (typed_bare _ _ _ _ S), H1, (attribute_ok _ O).
      assert (Ty : (match dc_access d, m with Bare, ExtExDc => true | _, _ => false end) = false) by (destruct (dc_access d), m; try reflexivity; contradiction). rewrite Ty. cbn [bind orb at_ nth_error]. rewrite Au. reflexivity. }
    rewrite G. cbn [bind]. unfold construct. rewrite (is_box_space _ _ _ _ S), (sh_wrapped _ _ _ _ S), (attribute_ok _ O). cbn [negb py_assert bind].
    assert (Cases : (m = ShuntDc) \/ (m = PermExDc \/ m = SeriesDc)) by (destruct m; try discriminate D; auto; contradiction). destruct Cases as [->|Cases].
    + cbn. eexists. split; [reflexivity|]. destruct (dc_access d); try contradiction; reflexivity.
    + assert (W : match m with ShuntDc => true | _ => false end = false) by (destruct Cases; subst; reflexivity). rewrite W. cbn [negb py_assert bind].
      destruct (make_pi (dc_env d) s' false false Ts) as (b0 & M0 & C0).
      assert (Sp : en_space (dc_env d) = SBox [-1] [1]) by (rewrite (sh_space _ _ _ _ S); destruct Cases; subst; reflexivity).
      assert (Ex : en_extex (dc_env d) = false) by (rewrite (sh_extex _ _ _ _ S); destruct Cases; subst; reflexivity).
      assert (Rr : rest = []) by (destruct Cases; subst; reflexivity).
      assert (N : exists c, ca_new (dc_env d) (SList [s']) (dc_refs d) = Ok c /\ ca_inv (length (en_names (dc_env d))) 1 1 false (-1 * k) (1 * k) 0 0 c).
      { unfold ca_new. rewrite Sp, R1, Rr. cbn [first_where]. rewrite R2. cbn [bind at_ nth_error]. rewrite R3. cbn [bind]. rewrite (sh_fld _ _ _ _ S), (sh_v _ _ _ _ S), O1. cbn [bind item nth_error]. rewrite K1, (K3 1), Ex. cbn [bind existsb]. rewrite R2'. cbn [orb length Nat.leb py_assert bind]. rewrite M0. cbn [bind fst snd].
        eexists. split; [reflexivity|]. constructor; cbn; try reflexivity; try lia; try assumption; [destruct B; assumption|apply (flux_ok false m d D S)]. }
      destruct N as (c & -> & V). cbn [bind]. eexists. split; [reflexivity|].
      assert (Us : usable d (MCont c)).
      { intros h F. assert (Lr' : length (dc_refs d) = 1%nat) by (rewrite R1, Rr; reflexivity). rewrite Lr' in F. destruct (ca_total _ _ _ _ _ _ _ _ Kk (Rle_refl 0) h c V F) as (x & Er & Fx). cbn [actions]. rewrite Er. cbn [bind]. eexists. split; [reflexivity|]. revert Fx. apply Forall_impl. intros ac (La & v & E0 & [Bv Bv'] & _).
        rewrite Sp. destruct ac as [|y0 [|]]; try discriminate La. cbn in E0. injection E0 as ->. cbn. split; [|reflexivity]. repeat (apply Forall2_cons || apply Forall2_nil); cbn; lra. }
      destruct Cases; subst m; destruct (dc_access d); try contradiction; eauto.
Qed.

(** ** The gains of the cascade for the externally excited motor *)
Lemma lims_of t f d wl il iel ul uel la : shape t f ExtExDc d -> item (en_limits (dc_env d)) 0 = Ok wl -> item (en_limits (dc_env d)) 2 = Ok il -> item (en_limits (dc_env d)) 3 = Ok iel ->
  item (en_limits (dc_env d)) 4 = Ok ul -> item (en_limits (dc_env d)) 5 = Ok uel -> dict_get "l_a" (en_mp (dc_env d)) = Some la ->
  read_lims d = Ok {| lm_omega := wl; lm_ia := il; lm_ie := iel; lm_ua := ul; lm_ue := uel; lm_l := la |}.
Proof.
  intros S H0 H2 H3 H4 H5 La. assert (D : is_dc ExtExDc = true) by reflexivity. destruct (index_om _ _ _ _ D S) as (O1 & _). unfold read_lims, dict_item.
  rewrite O1, (sh_arm _ _ _ _ S), (sh_fld _ _ _ _ S), (sh_v0 _ _ _ _ S), (sh_v _ _ _ _ S), (sh_series _ _ _ _ S), La. cbn [bind arm fld vlt]. rewrite H0. cbn [bind]. unfold arm. rewrite H2, H3, H4, H5. reflexivity.
Qed.
Definition tuned (p i : R) : stage := {| st_type := "pi_controller"; st_par := [("p_gain", p); ("i_gain", i)] |}.
Lemma exc_cascade_gains t d a wl il iel ul uel la le : cascade_task t = true -> shape t false ExtExDc d ->
  item (en_limits (dc_env d)) 0 = Ok wl -> item (en_limits (dc_env d)) 2 = Ok il -> item (en_limits (dc_env d)) 3 = Ok iel ->
  item (en_limits (dc_env d)) 4 = Ok ul -> item (en_limits (dc_env d)) 5 = Ok uel -> dict_get "l_a" (en_mp (dc_env d)) = Some la -> dict_get "l_e" (en_mp (dc_env d)) = Some le ->
  let tau := en_tau (dc_env d) in
  let p0 := la / (tau * a) / ul * il in let p1 := dc_j d / (a * (tau * (a * a))) / il * wl in let pe := le / (tau * a) / uel * iel in
  let s0 := tuned p0 (p0 / (tau * (a * a))) in let s1 := tuned p1 (p1 / (a * (tau * (a * a)))) in let se := tuned pe (pe / (tau * (a * a))) in
  dc_gain d a KCasc (SPair [out false; pi_stage] [out false]) = Ok (match dc_access d with Bare => SPair [s0; s1] [se] | _ => SPair [s0; pi_stage] [s1] end).
Proof.
  intros T S H0 H2 H3 H4 H5 La Le. cbv zeta. unfold dc_gain. rewrite (lims_of _ _ _ _ _ _ _ _ _ S H0 H2 H3 H4 H5 La). cbn [bind]. unfold split_stages. rewrite (typed_bare _ _ _ _ S), (is_box_space _ _ _ _ S).
  destruct (dc_access d); cbn [negb bind]; [unfold exc_gains, dict_item; rewrite Le|..]; reflexivity.
Qed.
Lemma exc_cascade_made t d a s0 s1 se : cascade_task t = true -> shape t false ExtExDc d -> dc_gain d a KCasc (SPair [out false; pi_stage] [out false]) = Ok (SPair [s0; s1] [se]) ->
  st_type s0 = "pi_controller" -> st_type s1 = "pi_controller" -> st_type se = "pi_controller" ->
  exists c e, make d None a true = Some (Ok (MCasc c)) /\ make_stages (dc_env d) [s0; s1] [s0; s1] = Ok (cc_stages c) /\ cc_exc c = Some e /\ base_make (dc_env d) se false true = Ok (cx_ctl e).
Proof.
  intros T S G F0 T1 Fe. assert (D : is_dc ExtExDc = true) by reflexivity. unfold make. rewrite (design_cascade _ _ _ _ D T S). cbn [class_of has existsb String.eqb Ascii.eqb Bool.eqb orb].
  destruct (read_lims_ok _ _ _ _ D S) as (l & Rl). rewrite Rl. cbn [bind]. rewrite G. cbn [bind].
  destruct (new_exc t false d s0 s1 se T S F0 T1 Fe) as (c & lo & hi & lo1 & hi1 & N & V & B1 & B2 & B3 & B4 & M & e & E1 & E2). exists c, e. split; [|auto].
  unfold construct. cbn [tl existsb]. rewrite T1. cbn [has existsb String.eqb Ascii.eqb Bool.eqb orb bind]. rewrite N. reflexivity.
Qed.

(** ** Given gains *)
Lemma extends_refl s : extends s s.
Proof. repeat split; auto. Qed.
Lemma extends_trans s1 s2 s3 : extends s1 s2 -> extends s2 s3 -> extends s1 s3.
Proof. intros (A & B & C) (A' & B' & C'). split; [congruence|]. split; [auto|]. intros k K. rewrite C', C; auto. Qed.
Lemma extends_set k v s : In k ["p_gain"; "i_gain"; "d_gain"] -> extends s (set_default k v s).
Proof.
  intros I. split; [reflexivity|]. unfold set_default. cbn [st_par]. split.
  - intros k' v' H. rewrite dict_get_set. destruct (String.eqb_spec k k') as [<-|]; [|exact H]. unfold st_get. rewrite H. reflexivity.
  - intros k' N. rewrite dict_get_set. destruct (String.eqb_spec k k') as [<-|]; [contradiction|reflexivity].
Qed.
Lemma extends_pi p i s : extends s (pi_gains p i s).
Proof. unfold pi_gains. eapply extends_trans; apply extends_set; cbn; auto. Qed.
Lemma extends_list l : Forall2 extends l l.
Proof. induction l; constructor; auto using extends_refl. Qed.
Lemma extends_first l s s' : at_ l 0 = Ok s -> extends s s' -> Forall2 extends l (list_set 0 s' l).
Proof. destruct l as [|x l]; cbn; [discriminate|]. intros H X. injection H as <-. constructor; [exact X|apply extends_list]. Qed.
Lemma exc_extends d m a sb sb' : exc_gains d m a sb = Ok sb' -> Forall2 extends sb sb'.
Proof. unfold exc_gains. destruct (dict_item "l_e" (en_mp (dc_env d))); [|discriminate]. cbn [bind]. destruct (at_ sb 0) as [s|] eqn:E; [|discriminate]. cbn [bind]. intros H. injection H as <-. eapply extends_first; [exact E|apply extends_pi]. Qed.
Lemma auto_extends e x a s s' : auto_current e x a s = Ok s' -> extends s s'.
Proof.
  unfold auto_current. intros H. ub H. destruct (String.eqb (st_type s) "pid_controller"); injection H as <-; repeat (eapply extends_trans; [|apply extends_set; cbn; tauto]); apply extends_refl.
Qed.
Lemma cont_extends d m a s s' : cont_gains d m a s = Ok s' -> extends s s'.
Proof.
  unfold cont_gains. destruct (has "i" (dc_refs d) || has "i_a" (dc_refs d) || has "torque" (dc_refs d)).
  - destruct (attribute (dc_access d)); [|discriminate]. cbn [bind]. apply auto_extends.
  - destruct (has "omega" (dc_refs d)); [|intros H; injection H as <-; apply extends_refl]. intros H. ub H. destruct (is_pid s); injection H as <-; [eapply extends_trans; [apply extends_pi|apply extends_set; cbn; tauto]|apply extends_pi].
Qed.
Lemma casc_extends d m a inner i prev s x : casc_gains d m a inner i prev s = Ok x -> extends s (snd x).
Proof.
  unfold casc_gains. destruct (stage_class (st_type s)) as [[|]|]; cbn [bind]; [|intros H; injection H as <-; apply extends_refl|discriminate].
  destruct (if is_pid s && Nat.eqb i 0 && negb inner then attribute (dc_access d) else Ok tt); [|discriminate]. cbn [bind].
  match goal with |- match ?g with _ => _ end = _ -> _ => destruct g as [[p q]|]; [|discriminate] end. intros H. injection H as <-. cbn [snd].
  destruct (is_pid s && Nat.ltb i 2); [eapply extends_trans; [apply (extends_set "d_gain"); cbn; tauto|apply extends_pi]|apply extends_pi].
Qed.
Lemma loop_extends d m a n : forall i prev l l', casc_loop d m a n i prev l = Ok l' -> Forall2 extends l l'.
Proof.
  induction n as [|n IH]; intros i prev l l'; cbn [casc_loop]; [intros H; injection H as <-; apply extends_list|]. destruct l as [|s l]; [discriminate|].
  destruct (casc_gains d m a false i prev s) as [x|] eqn:Ex; [|discriminate]. cbn [bind]. destruct (casc_loop d m a n (S i) (fst x) l) as [r|] eqn:El; [|discriminate]. cbn [bind]. intros H. injection H as <-.
  constructor; [eapply casc_extends; exact Ex|eapply IH; exact El].
Qed.
Lemma split_extends d m a k ss ss' : split_stages d m a k ss = Ok ss' -> stages_extend ss ss'.
Proof.
  assert (Rf : stages_extend ss ss) by (destruct ss; cbn; auto using extends_list).
  unfold split_stages. destruct (typed d); [|intros H; injection H as <-; exact Rf]. destruct ss as [l|sa sb].
  - destruct (at_ l 0); [|discriminate]. destruct (at_ l 1); [|discriminate]. cbn [bind]. destruct (is_box _); [destruct (dict_item _ _); discriminate|]. destruct k; try discriminate; intros H; injection H as <-; exact Rf.
  - destruct (is_box _); [|intros H; injection H as <-; exact Rf]. destruct (exc_gains d m a sb) as [sb'|] eqn:Ee; [|discriminate]. cbn [bind]. intros H. injection H as <-. cbn. split; [apply extends_list|eapply exc_extends; exact Ee].
Qed.
Lemma forall2_trans l1 : forall l2 l3, Forall2 extends l1 l2 -> Forall2 extends l2 l3 -> Forall2 extends l1 l3.
Proof. induction l1 as [|s l1 IH]; intros l2 l3 A B; inversion A; subst; inversion B; subst; constructor; [eapply extends_trans; eassumption|eapply IH; eassumption]. Qed.
Lemma stages_extend_trans s1 s2 s3 : stages_extend s1 s2 -> stages_extend s2 s3 -> stages_extend s1 s3.
Proof. destruct s1, s2, s3; cbn; try tauto; [apply forall2_trans|]. intros [A B] [C D]. split; eapply forall2_trans; eassumption. Qed.
Lemma dc_gain_extends d a k ss ss' : dc_gain d a k ss = Ok ss' -> stages_extend ss ss'.
Proof.
  unfold dc_gain. destruct (read_lims d) as [m|]; [|discriminate]. cbn [bind]. destruct (split_stages d m a k ss) as [s1|] eqn:Es; [|discriminate]. cbn [bind]. apply split_extends in Es. intros H.
  assert (K : stages_extend s1 ss'); [|eapply stages_extend_trans; eassumption]. clear Es. destruct k, s1 as [l|sa sb].
  - destruct (at_ l 0) as [s|] eqn:E0; [|discriminate]. cbn [bind] in H. destruct (cont_gains d m a s) as [s'|] eqn:E1; [|discriminate]. cbn [bind] in H. injection H as <-. cbn. eapply extends_first; [exact E0|eapply cont_extends; exact E1].
  - destruct (typed d).
    + destruct (at_ sa 0) as [s|] eqn:E0; [|discriminate]. cbn [bind] in H. destruct (cont_gains d m a s) as [s'|] eqn:E1; [|discriminate]. cbn [bind] in H. injection H as <-. cbn. split; [eapply extends_first; [exact E0|eapply cont_extends; exact E1]|apply extends_list].
    + destruct (_ || _); [destruct (attribute (dc_access d)); discriminate|]. injection H as <-. cbn. auto using extends_list.
  - injection H as <-. cbn. apply extends_list.
  - injection H as <-. cbn. auto using extends_list.
  - destruct (casc_loop d m a (length l) 0 None l) as [l'|] eqn:El; [|discriminate]. cbn [bind] in H. injection H as <-. cbn. eapply loop_extends; exact El.
  - destruct (typed d).
    + destruct (casc_loop d m a 2 0 None sa) as [sa'|] eqn:El; [|discriminate]. cbn [bind] in H. injection H as <-. cbn. split; [eapply loop_extends; exact El|apply extends_list].
    + destruct (at_ sa 0) as [s0|] eqn:E0; [|discriminate]. cbn [bind] in H. destruct (casc_gains d m a true 0 None s0) as [x|] eqn:E1; [|discriminate]. cbn [bind] in H. destruct (at_ sb 0) as [s1|] eqn:E2; [|discriminate]. cbn [bind] in H.
      destruct (casc_gains d m a true 1 (fst x) s1) as [y|] eqn:E3; [|discriminate]. cbn [bind] in H. injection H as <-. cbn. split; eapply extends_first; [exact E0|eapply casc_extends; exact E1|exact E2|eapply casc_extends; exact E3].
Qed.
(** Stages after the second *)
Lemma loop_tail d m a p q n : forall i, (2 <= i)%nat -> casc_loop d m a n i (Some (p, q)) (repeat pi_stage n) = Ok (repeat (tuned p q) n).
Proof.
  induction n as [|n IH]; intros i I; [reflexivity|]. cbn [repeat casc_loop]. unfold casc_gains. destruct i as [|[|i]]; [lia|lia|]. cbn. rewrite IH by lia. reflexivity.
Qed.
