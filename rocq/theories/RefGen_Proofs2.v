(** Further proofs about reference generators: no exceptions, sub-episodes, super-episodes. *)
From Verif Require Import PyBaseFacts PyDictFacts Utils_Model Solver_Model Solver_Proofs RefGen_Model RefGen_Spec RefGen_Proofs.

(** ** Numbers *)
Lemma py_int_spec x : 0 <= x -> IZR (py_int x) <= x < IZR (py_int x) + 1.
Proof. intros H. unfold py_int. destruct (rltP x 0); [lra|]. destruct (base_Int_part x). lra. Qed.
Lemma py_int_le x y : 0 <= x -> x <= y -> (py_int x <= py_int y)%Z.
Proof.
  intros Hx Hy. destruct (py_int_spec x Hx) as [A1 A2]. destruct (py_int_spec y ltac:(lra)) as [B1 B2].
  assert (IZR (py_int x) < IZR (py_int y + 1)) by (rewrite plus_IZR; lra). apply lt_IZR in H. lia.
Qed.
Lemma py_int_IZR n : (0 <= n)%Z -> py_int (IZR n) = n.
Proof.
  intros H. assert (H0 : 0 <= IZR n) by (apply (IZR_le 0); exact H). destruct (py_int_spec (IZR n) H0) as [A B].
  apply le_IZR in A. rewrite <- plus_IZR in B. apply lt_IZR in B. lia.
Qed.
Lemma py_int_pos x : 1 <= x -> (1 <= py_int x)%Z.
Proof. intros H. rewrite <- (py_int_IZR 1) by lia. apply py_int_le; lra. Qed.

Section Sub2.
Context {N : numpy} (HN : numpy_ok N).

Lemma current_value_in r (g : np_gen N) v g' : lens_ok r -> current_value r g = Ok (v, g') -> 1 <= v /\ in_lens r (py_int v).
Proof.
  intros Hr H. destruct r as [x|x|a b]; cbn in *; [|contradiction|].
  - injection H as <- _. auto.
  - pose proof (ok_uniform _ HN g) as Hu. destruct (np_uniform N g) as [u g1]. cbn [fst] in Hu. injection H as <- _. set (v := (b - a) * u + a).
    assert (Hv : a <= v <= b) by (unfold v; nra). split; [lra|]. split; [split; apply py_int_le; lra|]. intros Hab.
    assert (v < b) by (unfold v; nra). destruct (py_int_spec v ltac:(lra)). lra.
Qed.
Lemma current_value_ok r (g : np_gen N) : match r with VNp _ => False | _ => True end -> exists v g', current_value r g = Ok (v, g').
Proof. destruct r as [x|x|a b]; cbn; [eauto|contradiction|]. destruct (np_uniform N g) as [u g1]. eauto. Qed.
Lemma current_value_pos r (g : np_gen N) v g' : freq_ok r true -> current_value r g = Ok (v, g') -> 0 < v.
Proof.
  intros Hr H. destruct r as [x|x|a b]; cbn in *; [congruence|contradiction|].
  pose proof (ok_uniform _ HN g) as Hu. destruct (np_uniform N g) as [u g1]. cbn [fst] in Hu. injection H as <- _. nra.
Qed.

(** Parameters after [set_modules]. *)
Definition wave_live (w : wave) (pos : bool) : Prop := freq_ok (w_freq w) pos /\ exists a b c d, w_set w = Some (VPair a b, VPair c d).
Definition kind_live (k : kind) : Prop :=
  match k with
  | Wiener sg i => i <> None /\ exists a b, sg = VPair a b
  | Laplace sg => exists a b, sg = VPair a b
  | Sinus w | Triangle w | Saw w => wave_live w false
  | Step w => wave_live w true
  end.
Lemma wave_modules_live w lo hi pos : wave_ok w pos -> w_set w = None -> wave_live (wave_modules w lo hi) pos.
Proof.
  intros (H1 & H2 & H3) H4. unfold wave_modules. rewrite H4. destruct (w_amp w) as [|a b]; [contradiction|]. destruct (w_off w) as [|c d]; [contradiction|]. cbn. split; [exact H3|]. cbn. eauto 8.
Qed.
Lemma kind_modules_live k lo hi : kind_ok k -> kind_new k -> kind_live (kind_modules k lo hi).
Proof.
  destruct k as [sg i|sg|w|w|w|w]; cbn [kind_ok kind_new kind_modules kind_live]; intros H1 H2.
  - destruct sg as [x|x|a b]; try contradiction. destruct i; cbn; split; try discriminate; eauto.
  - destruct sg as [x|x|a b]; try contradiction. eauto.
  - now apply wave_modules_live.
  - now apply wave_modules_live.
  - now apply wave_modules_live.
  - now apply wave_modules_live.
Qed.
Lemma draw_wave_ok w hi low pos (g : np_gen N) : wave_live w pos -> exists a f o g', draw_wave w hi low g = Ok (a, f, o, g') /\ (pos = true -> 0 < f).
Proof.
  intros (Hf & a & b & c & d & Hs). unfold draw_wave. rewrite Hs.
  destruct (current_value_ok (VPair a b) g I) as (va & g1 & E1). rewrite E1. cbn [bind fst snd].
  destruct (current_value_ok (w_freq w) g1) as (vf & g2 & E2); [destruct (w_freq w); cbn in Hf; auto|]. rewrite E2. cbn [bind fst snd clip_range].
  destruct (current_value_ok (VPair (np_clip c (low va) (hi - va)) (np_clip d (low va) (hi - va))) g2 I) as (vo & g3 & E3). rewrite E3. cbn [bind fst snd].
  exists va, vf, vo, g3. split; [reflexivity|]. intros ->. exact (current_value_pos _ _ _ _ Hf E2).
Qed.
Lemma new_reference_ok k lo hi v tau n (g : np_gen N) : kind_live k -> (0 <= n)%Z -> exists r g', new_reference k lo hi v tau n g = Ok (r, g').
Proof.
  intros Hk Hn. unfold new_reference. destruct (Z.ltb_spec n 0) as [Hl|_]; [lia|]. destruct k as [sg i|sg|w|w|w|w]; cbn [kind_live] in Hk.
  - destruct Hk as (_ & a & b & ->). unfold draw_sigma. destruct (current_value_ok (VPair (log10 a) (log10 b)) g I) as (x & g1 & ->). cbn [bind fst snd]. destruct (np_normal N (Rpower 10 x) (Z.to_nat n) g1). eauto.
  - destruct Hk as (a & b & ->). unfold draw_sigma. destruct (current_value_ok (VPair (log10 a) (log10 b)) g I) as (x & g1 & ->). cbn [bind fst snd]. destruct (np_laplace N (Rpower 10 x) (Z.to_nat n) g1). eauto.
  - destruct (draw_wave_ok w hi (fun a => - hi + a) false g Hk) as (a & f & o & g1 & -> & _). cbn [bind]. destruct (np_uniform N g1). eauto.
  - destruct (draw_wave_ok w hi (fun a => - hi + a) false g Hk) as (a & f & o & g1 & -> & _). cbn [bind]. destruct (np_uniform N g1) as [u g2]. destruct (np_uniform N g2). eauto.
  - destruct (draw_wave_ok w hi (fun a => - hi + a) false g Hk) as (a & f & o & g1 & -> & _). cbn [bind]. destruct (np_uniform N g1). eauto.
  - destruct (draw_wave_ok w hi (fun a => lo + a) true g Hk) as (a & f & o & g1 & -> & Hf). cbn [bind]. destruct (np_triangular N g1) as [t g2]. specialize (Hf eq_refl).
    destruct (reqP f 0); [lra|]. destruct (np_uniform N g2). eauto.
Qed.

Definition sub_live (s : sub N) : Prop := lens_ok (s_lens s) /\ kind_live (s_kind s) /\ exists lo hi, s_margin s = LmPair lo hi.
Definition sub_ready (s : sub N) : Prop := (s_len s <= Z.of_nat (s_k s))%Z \/ exists r, s_ref s = Some r /\ Z.of_nat (length r) = s_len s.
Lemma sub_live_same s s' : same_config s s' -> sub_live s -> sub_live s'.
Proof. unfold same_config, sub_live. intros (E1 & E2 & E3 & E4 & E5 & E6 & E7). now rewrite E2, E3, E4. Qed.
Lemma sub_obs_ok s : sub_live s -> sub_ready s -> exists s' v, sub_obs s = Ok (s', [v]) /\ sub_ready s'.
Proof.
  intros (L1 & L2 & lo & hi & L3) Hr. unfold sub_obs. destruct (Z.leb_spec (s_len s) (Z.of_nat (s_k s))) as [Hk|Hk].
  - destruct (current_value_ok (s_lens s) (s_gen s)) as (l & g1 & E1); [destruct (s_lens s); cbn in L1; auto|]. rewrite E1, L3. cbn [bind fst snd bounds].
    destruct (current_value_in _ _ _ _ L1 E1) as [Hl _]. apply py_int_pos in Hl.
    destruct (new_reference_ok (s_kind s) lo hi (s_value s) (s_tau s) (py_int l) g1 L2 ltac:(lia)) as (r & g2 & E2). rewrite E2. cbn [bind fst snd].
    destruct (new_reference_length _ _ _ _ _ _ _ _ _ HN E2) as [_ Hlen]. cbn [s_ref sub_with s_k].
    destruct r as [|v r]; [cbn in Hlen; lia|]. cbn [nth_error]. do 2 eexists. split; [reflexivity|]. right. cbn [s_ref sub_with s_len]. exists (v :: r). split; [reflexivity|]. rewrite Hlen. lia.
  - cbn [bind]. destruct Hr as [Hr|(r & E & Hlen)]; [lia|]. rewrite E. destruct (nth_error r (s_k s)) as [v|] eqn:Ev; [|apply nth_error_None in Ev; lia].
    do 2 eexists. split; [reflexivity|]. right. cbn. exists r. auto.
Qed.
Lemma sub_reset_ok nms init s : sub_live s -> In (lower (s_state s)) nms -> s_mask s = map (String.eqb (lower (s_state s))) nms ->
  match init with Some r => length r = length nms | None => True end -> exists s' rf v, sub_reset init s = Ok (s', (rf, [v])) /\ sub_ready s'.
Proof.
  intros HL Hin Hm Hi. unfold sub_reset.
  assert (E : exists i g, match s_kind s, init with
           | Wiener _ i, None => match i with None => Err TypeError | Some (a, b) => let (u, g) := np_uniform N (s_gen s) in Ok (Some (put_masked (s_mask s) (a + (b - a) * u)), g) end
           | _, i => Ok (i, s_gen s) end = Ok (i, g) /\ match i with Some r => length r = length nms | None => True end).
  { destruct HL as (_ & HK & _). destruct (s_kind s) as [sg i|sg|w|w|w|w]; try (do 2 eexists; split; [reflexivity|exact Hi]). destruct init as [r|]; [do 2 eexists; split; [reflexivity|exact Hi]|].
    destruct HK as [Hne _]. destruct i as [[a b]|]; [|congruence]. destruct (np_uniform N (s_gen s)) as [u g]. do 2 eexists. split; [reflexivity|]. cbn. unfold put_masked. rewrite map_length, Hm, map_length. reflexivity. }
  destruct E as (i & g & -> & Hi'). cbn [bind fst].
  assert (E : exists v, match i with Some r => pick (s_mask s) r | None => Ok 0 end = Ok v).
  { destruct i as [r|]; [|eauto]. rewrite Hm. apply pick_ok; assumption. }
  destruct E as [v ->]. cbn [bind]. destruct (np_spawn N (s_seq s)) as [g' seq].
  destruct (sub_obs_ok (sub_with s v (-1) (s_k s) (s_ref s) seq g')) as (s' & x & E & Hr); [exact HL|left; cbn; lia|]. rewrite E. cbn [bind fst snd]. eauto 6.
Qed.

(** *** Sub-episodes *)
Lemma episodes_same (s s' : sub N) v g es g' : same_config s s' -> episodes s' v g es g' -> episodes s v g es g'.
Proof.
  intros (E1 & E2 & E3 & E4 & E5 & E6 & E7) H. induction H as [v g|v g l g1 lo hi e g2 es g3 H1 H2 H3 H4 H5 IH]; [constructor|].
  apply (ep_cons s v g l g1 lo hi e g2); [now rewrite <- E2|now rewrite <- E3|now rewrite <- E4, <- E7|exact H4|exact IH].
Qed.
Lemma last_cons_default (v : R) l d : last (v :: l) d = last l v.
Proof. revert v d. induction l as [|a l IH]; intros v d; [reflexivity|]. change (last (v :: a :: l) d) with (last (a :: l) d). now rewrite (IH a d), (IH a v). Qed.
Lemma play_episodes (s : sub N) n s' out : play s n s' out -> forall rem,
  ((Z.of_nat (s_k s) < s_len s)%Z /\ (exists r, s_ref s = Some r /\ Z.of_nat (length r) = s_len s /\ rem = skipn (s_k s) r) \/ (s_len s <= Z.of_nat (s_k s))%Z /\ rem = []) ->
  exists es g, episodes s (last rem (s_value s)) (s_gen s) es g /\ out = firstn n (rem ++ concat es) /\ (n <= length (rem ++ concat es))%nat /\ (es <> [] -> (length (rem ++ concat (removelast es)) < n)%nat).
Proof.
  induction 1 as [s|s s1 n s2 v out Hs Hp IH]; intros rem Hrem.
  - exists [], (s_gen s). split; [constructor|]. split; [reflexivity|]. split; [cbn; lia|]. congruence.
  - pose proof (sub_obs_static _ _ _ Hs) as [_ Hsame]. destruct (sub_obs_inv _ _ _ Hs) as (s0 & r & v' & E1 & E2 & Ev & -> & C). injection Ev as <-.
    destruct C as [[Hk ->]|(Hk & l & g1 & lo & hi & g2 & C1 & C2 & C3 & ->)].
    + destruct Hrem as [[_ (r' & R1 & R2 & ->)]|[R1 _]]; [|lia]. rewrite R1 in E1. injection E1 as ->.
      assert (Erem : skipn (s_k s) r = v :: skipn (S (s_k s)) r).
      { clear - E2. revert E2. generalize (s_k s) as k. induction r as [|a r IH]; intros k E; [destruct k; discriminate|]. destruct k; cbn in *; [congruence|]. exact (IH _ E). }
      rewrite Erem. destruct (IH (skipn (S (s_k s)) r)) as (es & g & I1 & I2 & I3 & I4).
      { cbn [sub_with s_ref s_k s_len]. destruct (Z.lt_ge_cases (Z.of_nat (S (s_k s))) (s_len s)) as [Hl|Hl]; [left; split; [exact Hl|]; exists r; auto|]. right. split; [exact Hl|]. apply skipn_all2. lia. }
      exists es, g. rewrite last_cons_default. split; [exact (episodes_same _ _ _ _ _ _ Hsame I1)|]. cbn [app firstn length]. split; [now rewrite I2|]. split; [lia|]. intros Hne. specialize (I4 Hne). lia.
    + destruct Hrem as [[R1 _]|[_ ->]]; [lia|]. cbn [sub_with s_ref s_k nth_error] in *. clear E1.
      destruct r as [|v0 r]; [discriminate|]. cbn in E2. injection E2 as ->.
      destruct (IH r) as (es & g & I1 & I2 & I3 & I4).
      { cbn [sub_with s_ref s_k s_len]. cbn [sub_with s_ref s_k s_len] in *. destruct (new_reference_length _ _ _ _ _ _ _ _ _ HN C3) as [P1 P2]. cbn [length] in P2.
        destruct (Z.lt_ge_cases (Z.of_nat 1) (py_int l)) as [Hl|Hl]; [left; split; [exact Hl|]; exists (v :: r); split; [reflexivity|]; split; [cbn [length]; lia|reflexivity]|].
        right. split; [exact Hl|]. destruct r; [reflexivity|cbn [length] in P2; lia]. }
      exists ((v :: r) :: es), g. split; [|split; [|split]].
      * cbn [last]. apply (ep_cons s (s_value s) (s_gen s) l g1 lo hi (v :: r) g2); [exact C1|exact C2|exact C3|discriminate|]. rewrite last_cons_default. exact (episodes_same _ _ _ _ _ _ Hsame I1).
      * cbn [concat app firstn]. now rewrite I2.
      * cbn [concat app length]. lia.
      * intros _. destruct es as [|e2 es]; [cbn; lia|]. specialize (I4 ltac:(discriminate)). change (removelast ((v :: r) :: e2 :: es)) with ((v :: r) :: removelast (e2 :: es)). cbn [concat app length]. lia.
Qed.
Lemma episodes_lengths (s : sub N) v g es g' : lens_ok (s_lens s) -> episodes s v g es g' -> Forall (fun e => in_lens (s_lens s) (Z.of_nat (length e))) es.
Proof.
  intros HL H. induction H as [v g|v g l g1 lo hi e g2 es g3 H1 H2 H3 H4 H5 IH]; constructor; [|exact IH].
  destruct (current_value_in _ _ _ _ HL H1) as [Hl Hin]. apply py_int_pos in Hl. destruct (new_reference_length _ _ _ _ _ _ _ _ _ HN H3) as [_ ->]. now rewrite Z2Nat.id by lia.
Qed.
End Sub2.

(** ** Trees never raise *)
Section Tree2.
Context {N : numpy} (HN : numpy_ok N).
Notation gen := (gen N).

Definition fits (nms : list string) (r : option (list R)) : Prop := match r with Some r => length r = length nms | None => True end.
Inductive live (nms : list string) : gen -> Prop :=
| lv_const s v m : live nms (GConst s v m)
| lv_zero n : live nms (GZero n)
| lv_sub s : sub_live s -> live nms (GSub s)
| lv_switched w subs : (fst (sw_range w) < snd (sw_range w))%Z -> (forall g, exists i g', np_choice N (length subs) (sw_p w) g = Ok (i, g')) ->
    fits nms (sw_ref w) -> Forall (live nms) subs -> live nms (GSwitched w subs)
| lv_multiple m subs : Forall (live nms) subs -> live nms (GMultiple m subs).
Inductive ready : gen -> Prop :=
| rd_const s v m : ready (GConst s v m)
| rd_zero n : ready (GZero n)
| rd_sub s : sub_ready s -> ready (GSub s)
| rd_switched w subs x : nth_error subs (sw_cur w) = Some x -> ready x -> ready (GSwitched w subs)
| rd_multiple m subs : Forall ready subs -> ready (GMultiple m subs).

Lemma sw_draw_ok (w : switched N) n : (fst (sw_range w) < snd (sw_range w))%Z -> (forall g, exists i g', np_choice N n (sw_p w) g = Ok (i, g')) ->
  exists l c g, sw_draw w n = Ok (sw_with w l 0 c (sw_ref w) (sw_seq w) g) /\ (c < n)%nat /\ (fst (sw_range w) <= l < snd (sw_range w))%Z.
Proof.
  intros H1 H2. unfold sw_draw, np_integers. destruct (Z.ltb_spec (fst (sw_range w)) (snd (sw_range w))) as [_|]; [|lia].
  pose proof (ok_below _ HN (snd (sw_range w) - fst (sw_range w)) (sw_gen w) ltac:(lia)) as Hb. destruct (np_below N _ (sw_gen w)) as [d g1]. cbn [bind fst snd] in *.
  destruct (H2 g1) as (i & g2 & E). rewrite E. cbn [bind fst snd]. do 3 eexists. split; [reflexivity|]. split; [exact (ok_choice _ HN _ _ _ _ _ E)|lia].
Qed.

Lemma live_switched_set nms w w' subs i x' : live nms (GSwitched w subs) -> live nms x' -> sw_range w' = sw_range w -> sw_p w' = sw_p w -> fits nms (sw_ref w') -> live nms (GSwitched w' (list_set i x' subs)).
Proof.
  intros H Hx E1 E2 E3. inversion H as [| | |w0 subs0 L1 L2 L3 L4|]; subst. constructor; [now rewrite E1|now rewrite E2, list_set_length|exact E3|]. now apply list_set_forall.
Qed.

Lemma sum_ok (nms : list string) (acc : list R) l : length acc = length nms -> Forall (fun x => length x = length nms) l -> exists s, sum_arrays acc l = Ok s /\ length s = length nms.
Proof.
  revert acc. induction l as [|x l IH]; intros acc Ha Hl; cbn [sum_arrays]; [eauto|]. inversion Hl as [|? ? A B]; subst. unfold np_add. rewrite Ha, A, Nat.eqb_refl. cbn [bind].
  apply IH; [rewrite map2_length; lia|exact B].
Qed.

Lemma reset_ok nms g : forall init, wf nms g -> live nms g -> fits nms init -> exists g' rf o, reset init g = Ok (g', (rf, o)) /\ live nms g' /\ ready g' /\ length rf = length nms.
Proof.
  induction g as [s v m|n|s|w subs IH|m subs IH] using gen_tree_ind; intros init Hw Hl Hi; cbn [reset].
  - inversion Hw as [s0 v0 m0 F1 F2 | | | |]; subst. do 3 eexists. split; [reflexivity|]. split; [exact Hl|]. split; [constructor|]. unfold put_masked. now rewrite !map_length.
  - inversion Hw as [|n0 F1| | |]; subst. do 3 eexists. split; [reflexivity|]. split; [exact Hl|]. split; [constructor|]. apply repeat_length.
  - inversion Hw as [| |s0 F1 F2| |]; subst. inversion Hl as [| |s0 L1| |]; subst.
    destruct (sub_reset_ok HN nms init s L1 F1 F2 Hi) as (s' & rf & v & E & Hr). rewrite E. cbn [bind fst snd]. do 3 eexists. split; [reflexivity|].
    destruct (sub_reset_static _ _ _ _ _ E) as [_ Hs]. split; [constructor; exact (sub_live_same _ _ Hs L1)|]. split; [now constructor|].
    destruct (sub_reset_inv _ _ _ _ _ E) as (v' & seq & g & _ & _ & ->). unfold put_masked. rewrite map_length, F2, map_length. reflexivity.
  - inversion Hw as [| | |w0 subs0 F1 F2 F3|]; subst. inversion Hl as [| | |w0 subs0 L1 L2 L3 L4|]; subst.
    destruct (np_spawn N (sw_seq w)) as [gn seq]. set (w1 := sw_with w (sw_len w) (sw_k w) (sw_cur w) (sw_ref w) seq gn).
    destruct (sw_draw_ok w1 (length subs) L1 L2) as (l & c & g & -> & Hc & _). cbn [bind sw_cur sw_with].
    destruct (nth_error subs c) as [x|] eqn:Ex; [|apply nth_error_None in Ex; lia]. pose proof (nth_error_In _ _ Ex) as Hin. rewrite Forall_forall in IH, F1, L4.
    destruct (IH x Hin init (F1 _ Hin) (L4 _ Hin) Hi) as (x' & rf & o & E & X1 & X2 & X3). rewrite (at_nth_intro _ _ _ _ _ _ Ex E). cbn [bind fst snd]. do 3 eexists. split; [reflexivity|].
    split; [apply (live_switched_set nms w); [exact Hl|exact X1|reflexivity|reflexivity|exact L3]|]. split; [|exact X3]. apply (rd_switched _ _ x'); [exact (list_set_same _ _ _ _ Ex)|exact X2].
  - inversion Hw as [| | | |m0 subs0 F1 F2 F3 F4 F5]; subst. inversion Hl as [| | | |m0 subs0 L1]; subst.
    assert (HF : exists ps, Forall2 (fun x p => reset init x = Ok p) subs ps /\ Forall (fun p => live nms (fst p) /\ ready (fst p) /\ length (fst (snd p)) = length nms) ps).
    { clear - IH F1 L1 Hi. induction subs as [|x subs IHs]; [exists []; auto|]. inversion IH as [|? ? A B]; subst. inversion F1 as [|? ? C D]; subst. inversion L1 as [|? ? G H]; subst.
      destruct (A init C G Hi) as (x' & rf & o & E & X). destruct (IHs B D H) as (ps & H1 & H2). exists ((x', (rf, o)) :: ps). split; constructor; auto. }
    destruct HF as (ps & HF & HP). rewrite (each_intro _ _ _ HF). cbn [bind fst snd].
    destruct (sum_ok nms (repeat 0 (mu_n m)) (map fst (map snd ps))) as (s & E & Es).
    { now rewrite repeat_length. }
    { clear - HP. induction HP as [|p ps (_ & _ & X) HP IH]; cbn; constructor; auto. }
    rewrite E. cbn [bind]. do 3 eexists. split; [reflexivity|]. split; [|split; [|exact Es]]; constructor; clear - HP; induction HP as [|p ps (X1 & X2 & _) HP IH]; cbn; constructor; auto.
Qed.

Lemma obs_ok nms g : wf nms g -> live nms g -> ready g -> exists g' o, get_obs g = Ok (g', o) /\ live nms g' /\ ready g'.
Proof.
  induction g as [s v m|n|s|w subs IH|m subs IH] using gen_tree_ind; intros Hw Hl Hr; cbn [get_obs].
  - do 2 eexists. split; [reflexivity|]. auto.
  - do 2 eexists. split; [reflexivity|]. auto.
  - inversion Hl as [| |s0 L1| |]; subst. inversion Hr as [| |s0 R1| |]; subst. destruct (sub_obs_ok HN s L1 R1) as (s' & v & E & Hr'). rewrite E. cbn [bind fst snd]. do 2 eexists. split; [reflexivity|].
    destruct (sub_obs_static _ _ _ E) as [_ Hs]. split; [constructor; exact (sub_live_same _ _ Hs L1)|]. now constructor.
  - inversion Hw as [| | |w0 subs0 F1 F2 F3|]; subst. inversion Hl as [| | |w0 subs0 L1 L2 L3 L4|]; subst. inversion Hr as [| | |w0 subs0 y R1 R2|]; subst. rewrite Forall_forall in IH, F1, L4.
    destruct (sw_len w <=? Z.of_nat (sw_k w))%Z.
    + destruct (sw_draw_ok w (length subs) L1 L2) as (l & c & g & -> & Hc & _). cbn [bind sw_cur sw_with].
      destruct (nth_error subs c) as [x|] eqn:Ex; [|apply nth_error_None in Ex; lia]. pose proof (nth_error_In _ _ Ex) as Hin.
      destruct (reset_ok nms x (sw_ref w) (F1 _ Hin) (L4 _ Hin) L3) as (x' & rf & o & E & X1 & X2 & X3). rewrite (at_nth_intro _ _ _ _ _ _ Ex E). cbn [bind fst snd]. do 2 eexists. split; [reflexivity|].
      split; [apply (live_switched_set nms w); [exact Hl|exact X1|reflexivity|reflexivity|exact L3]|]. apply (rd_switched _ _ x'); [exact (list_set_same _ _ _ _ Ex)|exact X2].
    + pose proof (nth_error_In _ _ R1) as Hin. destruct (IH y Hin (F1 _ Hin) (L4 _ Hin) R2) as (x' & o & E & X1 & X2). rewrite (at_nth_intro _ _ _ _ _ _ R1 E). cbn [bind fst snd]. do 2 eexists. split; [reflexivity|].
      split; [apply (live_switched_set nms w); [exact Hl|exact X1|reflexivity|reflexivity|exact L3]|]. apply (rd_switched _ _ x'); [exact (list_set_same _ _ _ _ R1)|exact X2].
  - inversion Hw as [| | | |m0 subs0 F1 F2 F3 F4 F5]; subst. inversion Hl as [| | | |m0 subs0 L1]; subst. inversion Hr as [| | | |m0 subs0 R1]; subst.
    assert (HF : exists ps, Forall2 (fun x p => get_obs x = Ok p) subs ps /\ Forall (fun p => live nms (fst p) /\ ready (fst p)) ps).
    { clear - IH F1 L1 R1. induction subs as [|x subs IHs]; [exists []; auto|]. inversion IH as [|? ? A B]; subst. inversion F1 as [|? ? C D]; subst. inversion L1 as [|? ? G H]; subst. inversion R1 as [|? ? I J]; subst.
      destruct (A C G I) as (x' & o & E & X). destruct (IHs B D H J) as (ps & H1 & H2). exists ((x', o) :: ps). split; constructor; auto. }
    destruct HF as (ps & HF & HP). rewrite (each_intro _ _ _ HF). cbn [bind fst snd]. do 2 eexists. split; [reflexivity|].
    split; constructor; clear - HP; induction HP as [|p ps (X1 & X2) HP IH]; cbn; constructor; auto.
Qed.

Lemma get_reference_live nms g : forall g' r, wf nms g -> get_reference g = Ok (g', r) -> (live nms g -> live nms g') /\ (ready g -> ready g').
Proof.
  induction g as [s v m|n|s|w subs IH|m subs IH] using gen_tree_ind; intros g' r Hw H; cbn [get_reference] in H.
  - apply Ok_inj in H. injection H as <- _. auto.
  - apply Ok_inj in H. injection H as <- _. auto.
  - apply Ok_inj in H. injection H as <- _. auto.
  - inversion Hw as [| | |w0 subs0 F1 F2 F3|]; subst. bindh H. destruct v as [subs' r']. cbn [fst snd] in H. apply Ok_inj in H. injection H as <- <-. destruct (at_nth_inv _ _ _ _ _ E) as (x & x' & Hx & Hr & ->).
    pose proof (nth_error_In _ _ Hx) as Hin. rewrite Forall_forall in IH, F1. destruct (IH x Hin _ _ (F1 x Hin) Hr) as [I1 I2]. split.
    + intros Hl. pose proof Hl as Hl0. inversion Hl as [| | |w0 subs0 L1 L2 L3 L4|]; subst. rewrite Forall_forall in L4. apply (live_switched_set nms w); [exact Hl0|now apply I1, L4|reflexivity|reflexivity|].
      cbn. destruct (get_reference_ok _ _ (F1 x Hin)) as (x1 & r1 & E1 & R). rewrite Hr in E1. injection E1 as <- <-. destruct R as (_ & _ & _ & _ & _ & _ & ->). unfold placed. apply map_length.
    + intros Hd. inversion Hd as [| | |w0 subs0 y R1 R2|]; subst. rewrite Hx in R1. injection R1 as <-. apply (rd_switched _ _ x'); [cbn; exact (list_set_same _ _ _ _ Hx)|auto].
  - inversion Hw as [| | | |m0 subs0 F1 F2 F3 F4 F5]; subst. bindh H. destruct v as [subs' rs]. bindh H. apply Ok_inj in H. injection H as <- <-. cbn [fst snd] in *. destruct (each_inv _ _ _ _ E) as (ps & -> & -> & HF). clear E E0.
    split; intros Hx; inversion Hx as [| | | |m0 subs0 L1]; subst; constructor; clear - HF IH F1 L1; (induction HF as [|x [x' rr] l ps Hx HF IHf]; cbn; [constructor|]; inversion IH as [|? ? A B]; subst; inversion F1 as [|? ? C D]; subst; inversion L1 as [|? ? G H]; subst; constructor; [apply (A _ _ C Hx); exact G|auto]).
Qed.

Lemma run_ok nms ops : forall g, wf nms g -> live nms g -> ready g -> Forall (fun o => match o with Reset i => fits nms i | _ => True end) ops -> exists g', run ops g = Ok g'.
Proof.
  induction ops as [|o ops IH]; intros g Hw Hl Hr Ho; cbn [run]; [eauto|]. inversion Ho as [|? ? H1 H2]; subst.
  assert (E : exists g' v, step o g = Ok (g', v) /\ live nms g' /\ ready g').
  { destruct o as [i| |]; cbn [step].
    - destruct (reset_ok nms g i Hw Hl H1) as (g' & rf & v & -> & X1 & X2 & _). cbn [bind fst snd]. eauto 6.
    - destruct (get_reference_ok _ _ Hw) as (g' & r & E & _). rewrite E. destruct (get_reference_live _ _ _ _ Hw E). eauto 8.
    - destruct (obs_ok nms g Hw Hl Hr) as (g' & v & -> & X). eauto 6. }
  destruct E as (g' & v & E & X1 & X2). rewrite E. cbn [bind fst]. destruct (step_keeps _ _ _ _ _ Hw E) as (W & _). auto.
Qed.

Lemma us_switched_inv w (subs : list gen) : usable (GSwitched w subs) -> (fst (sw_range w) < snd (sw_range w))%Z /\ (forall g, exists i g', np_choice N (length subs) (sw_p w) g = Ok (i, g')) /\ Forall usable subs.
Proof. intros H. inversion H; subst; auto. Qed.
Lemma us_multiple_inv m (subs : list gen) : usable (GMultiple m subs) -> Forall usable subs.
Proof. intros H. inversion H; subst; auto. Qed.
Lemma set_modules_live ps (g0 : gen) : forall g1, built g0 -> usable g0 -> set_modules ps g0 = Ok g1 -> live (p_names ps) g1.
Proof.
  induction g0 as [s v m|n|s|w subs IH|m subs IH] using gen_tree_ind; intros g1 Hb Hu H; cbn [set_modules] in H.
  - bindh H. apply Ok_inj in H. subst g1. constructor.
  - apply Ok_inj in H. subst g1. constructor.
  - destruct (built_sub_inv _ Hb) as (_ & _ & _ & B4). inversion Hu as [| |s0 U1 U2| |]; subst. bindh H. apply Ok_inj in H. subst g1. unfold sub_modules in E. bindh E. bindh E. apply Ok_inj in E. subst v. constructor.
    split; [exact U1|]. cbn [s_kind s_margin]. split; [now apply kind_modules_live|]. eauto.
  - destruct (built_switched_inv _ _ Hb) as (B1 & B2 & B3 & B4). destruct (us_switched_inv _ _ Hu) as (U1 & U2 & U3). bindh H. destruct v as [subs' u]. cbn [fst] in H. apply each_modules in E. bindh H. bindh H. destruct subs' as [|x0 l] eqn:Es; [discriminate|]. rewrite <- Es in *. bindh H. apply Ok_inj in H. subst g1.
    constructor; [exact U1| |cbn; rewrite B4; exact I|].
    + assert (El : length subs' = length subs) by (clear - E; induction E; cbn; lia). rewrite El. exact U2.
    + clear - E IH B1 U3. induction E as [|x y l1 l2 Hxy HF IHf]; [constructor|]. inversion IH; subst; inversion B1; subst; inversion U3; subst. constructor; auto.
  - pose proof (built_multiple_inv _ _ Hb) as B1. pose proof (us_multiple_inv _ _ Hu) as U1. bindh H. destruct v as [subs' u]. cbn [fst] in H. apply each_modules in E. destruct subs' as [|x0 l] eqn:Es; [discriminate|]. rewrite <- Es in *. bindh H. apply Ok_inj in H. subst g1.
    constructor. clear - E IH B1 U1. induction E as [|x y l1 l2 Hxy HF IHf]; [constructor|]. inversion IH; subst; inversion B1; subst; inversion U1; subst. constructor; auto.
Qed.
End Tree2.
