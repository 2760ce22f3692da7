(** Proofs about the assembled environments: the modules fit together and no call raises. *)
From Coq Require Import Permutation.
From Verif Require Import PyBaseFacts PyDictFacts Utils_Model Utils_Proofs Solver_Model Conv_Model Supply_Model PhysSys_Model Wrap_Model Wrap_Spec Wrap_Proofs2 Wrap_Props2 RefGen_Model RefGen_Spec RefGen_Proofs RefGen_Proofs2
  Constraint_Model Constraint_Spec Constraint_Proofs Reward_Model Reward_Proofs Preset_Model Env_Model Full_Model Full_Spec Full_Proofs.
Local Open Scope string_scope. Local Open Scope list_scope. Local Open Scope R_scope.

(** ** Wrappers *)

Lemma dict_items_ok {V} (d : dict V) ks : (forall k, In k ks -> exists v, dict_get k d = Some v) -> exists vs, dict_items ks d = Ok vs /\ length vs = length ks.
Proof.
  induction ks as [|k ks IH]; intros H; cbn [dict_items]; [exists []; auto|]. destruct (H k (or_introl eq_refl)) as [v Hv]. unfold dict_item. rewrite Hv. cbn [bind].
  destruct IH as (vs & -> & Hl); [intros k' Hk; apply H; right; exact Hk|]. cbn [bind]. exists (v :: vs). split; [reflexivity|]. cbn. congruence.
Qed.
Lemma cu_machine_ok {S} n c (m : machine S) : aligned n (m_info m) -> (forall k, In k (cu_currents c) -> In k (i_names (m_info m))) -> cu_currents c <> [] ->
  exists M, cu_machine c m = Ok M.
Proof.
  intros (L1 & L2 & L3 & L4 & L5 & Hn & Hp) Hin Hne. unfold cu_machine, cu_info.
  assert (Hget : forall k, In k (cu_currents c) -> exists v, dict_get k (i_pos (m_info m)) = Some v).
  { intros k Hk. destruct (In_nth_error _ _ (Hin k Hk)) as [j Hj]. exists j. now apply Hp. }
  destruct (dict_items_ok _ _ Hget) as (idx & E & Hl). rewrite E. cbn [bind]. destruct (dict_items_inv _ _ _ _ Hp E) as (_ & _ & B).
  destruct (select_ok idx (i_limits (m_info m))) as (ll & -> & Hll & _); [intros i Hi; rewrite L2, <- L1; now apply B|]. cbn [bind].
  assert (Hpos : (0 < length idx)%nat) by (rewrite Hl; destruct (cu_currents c); [congruence|cbn; lia]).
  assert (Hmax : forall l, (0 < length l)%nat -> exists r, cu_limit c l = Ok r).
  { intros [|x l] Hx; [cbn in Hx; lia|]. unfold cu_limit. destruct (cu_max c); cbn; eauto. }
  destruct (Hmax ll ltac:(lia)) as (lim & ->). cbn [bind].
  destruct (select_ok idx (i_nominal (m_info m))) as (nn & -> & Hnn & _); [intros i Hi; rewrite L3, <- L1; now apply B|]. cbn [bind].
  destruct (Hmax nn ltac:(lia)) as (nom & ->). cbn [bind].
  destruct (str_index_in "i_sum" (i_names (m_info m) ++ ["i_sum"])) as (i & ->); [apply in_or_app; right; left; reflexivity|]. cbn [bind]. eauto.
Qed.
Lemma cu_machine_total {S} n c (m : machine S) M seed valid I0 I : aligned n (m_info m) -> cu_machine c m = Ok M -> machine_total m seed valid n I0 I ->
  machine_total M seed valid (n + 1) I0 I.
Proof.
  intros Ha H (T1 & T2 & T3 & T4). destruct (cu_machine_inv n c m M Ha H) as (idx & lim & nom & ll & nn & p & L & G & B & _ & _ & _ & _ & _ & _ & Er & Es).
  assert (K : forall o, length o = n -> exists o', add_sum idx o = Ok o' /\ length o' = (n + 1)%nat).
  { intros o Lo. destruct (select_ok idx o) as (r & Hr & _); [intros i Hi; rewrite Lo; auto|]. unfold add_sum. rewrite Hr. cbn [bind]. eexists. split; [reflexivity|]. rewrite app_length. cbn. lia. }
  split; [exact T1|]. split; [exact T2|]. split.
  - intros s Hs. destruct (T3 s Hs) as (s' & o & E & Hs' & Lo). destruct (K o Lo) as (o' & Eo & Lo'). rewrite Er, E. unfold post. cbn [fst snd bind]. rewrite Eo. eauto.
  - intros a s Hs Hv. destruct (T4 a s Hs Hv) as (s' & o & E & Hs' & Lo). destruct (K o Lo) as (o' & Eo & Lo'). rewrite Es, E. unfold post. cbn [fst snd bind]. rewrite Eo. eauto.
Qed.
Lemma wrap_all_total {S} seed valid (I0 I : S -> Prop) ws : forall n (m : machine S), aligned n (m_info m) -> machine_total m seed valid n I0 I ->
  (forall w k, In w ws -> In k w -> In k (i_names (m_info m))) -> (forall w, In w ws -> w <> []) -> NoDup (i_names (m_info m) ++ map (fun _ => "i_sum") ws) ->
  exists M, wrap_all ws m = Ok M /\ aligned (n + length ws) (m_info M) /\ machine_total M seed valid (n + length ws) I0 I /\
    i_names (m_info M) = i_names (m_info m) ++ map (fun _ => "i_sum") ws.
Proof.
  induction ws as [|w ws IH]; intros n m Ha Ht Hin Hne Hnd; cbn [wrap_all length map].
  - exists m. rewrite Nat.add_0_r, app_nil_r. auto.
  - destruct (cu_machine_ok n {| cu_currents := w; cu_max := true |} m Ha) as (M & E).
    { intros k Hk. apply (Hin w k); [left; reflexivity|exact Hk]. } { apply Hne. left. reflexivity. }
    rewrite E. cbn [bind]. pose proof (cu_machine_inv n _ m M Ha E) as (idx & lim & nom & ll & nn & p & _ & _ & _ & _ & _ & _ & _ & _ & Ei & _).
    assert (En : i_names (m_info M) = i_names (m_info m) ++ ["i_sum"]) by (rewrite Ei; reflexivity).
    destruct (IH (n + 1)%nat M) as (M' & E' & A' & T' & N').
    + apply (current_sum_announced S n _ m M Ha E). intros Hc. cbn [map] in Hnd. apply NoDup_remove_2 in Hnd. apply Hnd. apply in_or_app. left. exact Hc.
    + eapply cu_machine_total; eauto.
    + intros w' k Hw Hk. rewrite En. apply in_or_app. left. apply (Hin w' k); [right; exact Hw|exact Hk].
    + intros w' Hw. apply Hne. right. exact Hw.
    + rewrite En, <- app_assoc. exact Hnd.
    + exists M'. split; [exact E'|]. replace (n + Datatypes.S (length ws))%nat with (n + 1 + length ws)%nat by lia. split; [exact A'|]. split; [exact T'|]. rewrite N', En, <- app_assoc. reflexivity.
Qed.

(** ** Reference generators *)
Section Gen.
Context {N : numpy} (HN : numpy_ok N).

Lemma new_wiener_ok ps r seq : NoDup (p_names ps) -> length (p_nominal ps) = length (p_names ps) -> length (p_limits ps) = length (p_names ps) ->
  length (p_low ps) = length (p_names ps) -> length (p_high ps) = length (p_names ps) -> ref_ok (p_names ps) r ->
  exists s s', new_wiener (N := N) r seq = Ok (GSub s) /\ set_modules ps (GSub s) = Ok (GSub s') /\ built (GSub s) /\ usable (GSub s) /\
    s_mask s' = map (String.eqb (lower (rf_state r))) (p_names ps) /\ lower (s_state s') = lower (rf_state r).
Proof.
  intros Hnd L1 L2 L3 L4 (Hin & Hs1 & Hs2). unfold new_wiener, sub_new. destruct (np_spawn N seq) as [g seq'] eqn:Esp. cbn [current_value].
  destruct (np_uniform N g) as [u g'] eqn:Eu. cbn [bind fst snd].
  set (m := match rf_margin r with Some (a, b) => LmPair a b | None => LmNone end).
  set (s := {| s_state := lower (rf_state r); s_lens := VPair 500 2000; s_margin := m; s_kind := Wiener (VPair (fst (rf_sigma r)) (snd (rf_sigma r))) None; s_value := 0;
        s_len := py_int ((2000 - 500) * u + 500); s_k := 0; s_ref := None; s_mask := []; s_space := (-1, 1); s_tau := 0; s_seq := seq'; s_gen := g' |} : sub N).
  assert (Hin' : In (lower (lower (rf_state r))) (p_names ps)) by now rewrite lower_idem.
  assert (Hp : forall l : list R, length l = length (p_names ps) -> exists x, pick (map (String.eqb (lower (rf_state r))) (p_names ps)) l = Ok x).
  { intros l Hl. pose proof (pick_ok (lower (rf_state r)) (p_names ps) l Hin' Hl) as K. rewrite lower_idem in K. exact K. }
  assert (Em : exists s', sub_modules ps s = Ok s' /\ s_mask s' = map (String.eqb (lower (rf_state r))) (p_names ps) /\ s_state s' = lower (rf_state r)).
  { unfold sub_modules. cbn [s s_state s_margin]. rewrite (state_mask_ok _ _ Hnd Hin'), lower_idem. cbn [bind].
    destruct (Hp _ L1) as (nom & Enom), (Hp _ L2) as (lim & Elim), (Hp _ L3) as (lo & Elo), (Hp _ L4) as (hi & Ehi).
    subst m. destruct (rf_margin r) as [[a b]|]; [rewrite Elo, Ehi|rewrite Enom, Elim, Ehi, Elo]; cbn [bind]; (eexists; split; [reflexivity|]); split; reflexivity. }
  destruct Em as (s' & Em & Hm & Hst). exists s, s'. split; [reflexivity|]. split; [cbn [set_modules]; rewrite Em; reflexivity|]. split; [|split; [|split; [exact Hm|rewrite Hst, lower_idem; reflexivity]]].
  - apply (built_sub (rf_state r) (VPair 500 2000) m (Wiener (VPair (fst (rf_sigma r)) (snd (rf_sigma r))) None) seq); [exact I|].
    unfold sub_new. rewrite Esp. cbn [current_value]. rewrite Eu. reflexivity.
  - constructor; cbn; [lra|auto].
Qed.

Lemma count_single names sts : count_mask (length names) (map (fun s => map (String.eqb s) names) sts) = map (fun nm => length (filter (fun s => String.eqb s nm) sts)) names.
Proof.
  induction sts as [|s sts IH]; cbn [map count_mask fold_right].
  - clear. induction names as [|nm l IHl]; [reflexivity|]. cbn [length repeat map]. rewrite IHl. reflexivity.
  - fold (count_mask (length names) (map (fun s => map (String.eqb s) names) sts)). rewrite IH. clear. induction names as [|nm l IHl]; cbn [map map2]; [reflexivity|]. rewrite IHl. f_equal.
    cbn [filter]. destruct (String.eqb s nm); reflexivity.
Qed.
Lemma filter_nodup nm sts : NoDup sts -> (length (filter (fun s => String.eqb s nm) sts) < 2)%nat.
Proof.
  intros H. induction H as [|s sts Hn Hd IH]; cbn [filter]; [cbn; lia|]. destruct (String.eqb_spec s nm) as [->|]; [|exact IH].
  assert (filter (fun s => String.eqb s nm) sts = []) as ->; [|cbn; lia]. clear - Hn. induction sts as [|x l IHl]; cbn; [reflexivity|].
  destruct (String.eqb_spec x nm) as [->|]; [exfalso; apply Hn; left; reflexivity|]. apply IHl. intros Hc. apply Hn. right. exact Hc.
Qed.

Lemma new_wieners_ok ps l : forall seqs, NoDup (p_names ps) -> length (p_nominal ps) = length (p_names ps) -> length (p_limits ps) = length (p_names ps) ->
  length (p_low ps) = length (p_names ps) -> length (p_high ps) = length (p_names ps) -> Forall (ref_ok (p_names ps)) l ->
  exists gs ys, new_wieners (N := N) l seqs = Ok gs /\ each (fun x => do y <- set_modules ps x; Ok (y, tt)) gs = Ok ys /\ Forall built gs /\ Forall usable gs /\
    map g_mask (fst ys) = map (fun s => map (String.eqb s) (p_names ps)) (map (fun r => lower (rf_state r)) l) /\
    map ref_states (fst ys) = map (fun r => [lower (rf_state r)]) l.
Proof.
  induction l as [|r l IH]; intros seqs Hnd L1 L2 L3 L4 Hl; cbn [new_wieners].
  - exists [], ([], []). repeat split; constructor.
  - inversion Hl as [|? ? Hr Hl']; subst. destruct (new_wiener_ok ps r (seqs O) Hnd L1 L2 L3 L4 Hr) as (s & s' & -> & Em & Hb & Hu & Hm & Hst). cbn [bind].
    destruct (IH (fun i => seqs (S i)) Hnd L1 L2 L3 L4 Hl') as (gs & ys & -> & Ey & Hbs & Hus & Hms & Hrs). cbn [bind].
    eexists _, _. split; [reflexivity|]. split; [rewrite each_cons, Em; cbn [bind]; rewrite Ey; cbn [bind]; reflexivity|]. cbn [fst snd map].
    split; [constructor; assumption|]. split; [constructor; assumption|]. split; [f_equal; [exact Hm|exact Hms]|]. f_equal; [cbn [ref_states]; now rewrite Hst|exact Hrs].
Qed.

Definition gen_inv (names : list string) (k : nat) (g : gen N) : Prop := wf names g /\ live names g /\ length (ref_states g) = k.
Lemma new_generator_ok ps r seqs : NoDup (p_names ps) -> length (p_nominal ps) = length (p_names ps) -> length (p_limits ps) = length (p_names ps) ->
  length (p_low ps) = length (p_names ps) -> length (p_high ps) = length (p_names ps) -> Forall (ref_ok (p_names ps)) (ref_list r) ->
  NoDup (map (fun r => lower (rf_state r)) (ref_list r)) -> ref_list r <> [] ->
  exists g g1, new_generator (N := N) r seqs = Ok g /\ set_modules ps g = Ok g1 /\ gen_inv (p_names ps) (length (ref_list r)) g1.
Proof.
  intros Hnd L1 L2 L3 L4 Hl Hd Hne.
  assert (H : exists g g1, new_generator (N := N) r seqs = Ok g /\ set_modules ps g = Ok g1 /\ built g /\ usable g /\ length (ref_states g1) = length (ref_list r)).
  { destruct r as [r|l]; cbn [new_generator ref_list] in *.
    - inversion Hl as [|? ? Hr _]; subst. destruct (new_wiener_ok ps r (seqs O) Hnd L1 L2 L3 L4 Hr) as (s & s' & E & Em & Hb & Hu & _). exists (GSub s), (GSub s'). auto.
    - destruct (new_wieners_ok ps l seqs Hnd L1 L2 L3 L4 Hl) as (gs & ys & -> & Ey & Hbs & Hus & Hms & Hrs). cbn [bind].
      assert (E1 : exists g1, set_modules ps (multiple_new gs) = Ok g1 /\ length (ref_states g1) = length l).
      { unfold multiple_new. cbn [set_modules]. rewrite Ey. cbn [bind]. destruct ys as [ys us]. cbn [fst] in *.
        destruct ys as [|y0 ys]; [destruct l; [congruence|discriminate Hms]|]. rewrite Hms, count_single.
        assert (forallb (fun c => Nat.ltb c 2) (map (fun nm => length (filter (fun s => String.eqb s nm) (map (fun r => lower (rf_state r)) l))) (p_names ps)) = true) as ->.
        { apply forallb_forall. intros c Hc. apply in_map_iff in Hc. destruct Hc as (nm & <- & _). apply Nat.ltb_lt, filter_nodup, Hd. }
        cbn [py_assert bind]. eexists. split; [reflexivity|]. cbn [ref_states].
        rewrite flat_map_concat_map, Hrs. clear. induction l; cbn in *; congruence. }
      destruct E1 as (g1 & E1 & Hlen). exists (multiple_new gs), g1. split; [reflexivity|]. split; [exact E1|]. split; [constructor; exact Hbs|]. split; [constructor; exact Hus|exact Hlen]. }
  destruct H as (g & g1 & E1 & E2 & Hb & Hu & Hlen). exists g, g1. split; [exact E1|]. split; [exact E2|]. split; [eapply set_modules_wf; eauto|]. split; [eapply set_modules_live; eauto|exact Hlen].
Qed.

Lemma forall2_len {A B} (P : A -> B -> Prop) l l' : Forall2 P l l' -> length l = length l'.
Proof. intros H. induction H; cbn; congruence. Qed.

(** Seeding keeps everything but the random numbers. *)
Definition reseed_from (h : list nat -> np_seq N * np_gen N) (path : list nat) : nat -> list (gen N) -> list (gen N) :=
  fix go (i : nat) (l : list (gen N)) : list (gen N) := match l with [] => [] | x :: l' => g_reseed h (i :: path) x :: go (S i) l' end.
Definition same_shape (names : list string) (g g' : gen N) : Prop :=
  g_mask g' = g_mask g /\ g_space g' = g_space g /\ ref_states g' = ref_states g /\ (wf names g -> wf names g') /\ (live names g -> live names g').
Lemma reseed_from_shape names h path l : forall i, Forall (fun g => forall path, same_shape names g (g_reseed h path g)) l -> Forall2 (same_shape names) l (reseed_from h path i l).
Proof. induction l as [|g l IH]; intros i H; [constructor|]. inversion H; subst. constructor; [auto|]. apply (IH (S i)). assumption. Qed.
Lemma shapes_map {B} names (f : gen N -> B) l l' : (forall g g', same_shape names g g' -> f g' = f g) -> Forall2 (same_shape names) l l' -> map f l' = map f l.
Proof. intros Hf H. induction H; cbn; [reflexivity|]. f_equal; auto. Qed.
Lemma shapes_wf names l l' : Forall2 (same_shape names) l l' -> Forall (wf names) l -> Forall (wf names) l'.
Proof. intros H. induction H as [|g g' l l' (_ & _ & _ & Hw & _) _ IH]; intros K; [constructor|]. inversion K; subst. constructor; auto. Qed.
Lemma shapes_live names l l' : Forall2 (same_shape names) l l' -> Forall (live names) l -> Forall (live names) l'.
Proof. intros H. induction H as [|g g' l l' (_ & _ & _ & _ & Hw) _ IH]; intros K; [constructor|]. inversion K; subst. constructor; auto. Qed.
Lemma reseed_shape names h g : forall path, same_shape names g (g_reseed h path g).
Proof.
  induction g as [s v m|n|s|w subs IH|m subs IH] using gen_tree_ind; intros path.
  - split; [reflexivity|]. repeat (split; [reflexivity|]). auto.
  - split; [reflexivity|]. repeat (split; [reflexivity|]). auto.
  - split; [reflexivity|]. repeat (split; [reflexivity|]). split; intros H; inversion H; subst; constructor; auto.
  - change (g_reseed h path (GSwitched w subs)) with (GSwitched (sw_with w (sw_len w) (sw_k w) (sw_cur w) (sw_ref w) (fst (h path)) (snd (h path))) (reseed_from h path 0 subs)).
    pose proof (reseed_from_shape names h path subs 0 IH) as Hs. pose proof (forall2_len _ _ _ Hs) as Hl.
    split; [reflexivity|]. split; [reflexivity|]. split; [cbn [ref_states sw_with sw_cur]; f_equal; apply (shapes_map names); [|exact Hs]; intros g g' K; apply K|].
    split; intros H.
    + inversion H as [| | |w0 subs0 F1 F2 F3|]; subst. constructor; [eapply shapes_wf; eauto| |cbn; lia].
      cbn [sw_with sw_mask sw_space]. clear - Hs F2. induction Hs as [|g g' l l' (K1 & K2 & _) _ IH]; [constructor|]. inversion F2; subst. constructor; [rewrite K1, K2; assumption|auto].
    + inversion H as [| | |w0 subs0 F1 F2 F3 F4|]; subst. constructor; [exact F1|cbn [sw_with sw_p]; rewrite <- Hl; exact F2|exact F3|eapply shapes_live; eauto].
  - change (g_reseed h path (GMultiple m subs)) with (GMultiple m (reseed_from h path 0 subs)).
    pose proof (reseed_from_shape names h path subs 0 IH) as Hs. pose proof (forall2_len _ _ _ Hs) as Hl.
    split; [reflexivity|]. split; [reflexivity|]. split; [cbn [ref_states]; rewrite !flat_map_concat_map; f_equal; apply (shapes_map names); [|exact Hs]; intros g g' K; apply K|].
    assert (Hm : map g_mask (reseed_from h path 0 subs) = map g_mask subs) by (apply (shapes_map names); [|exact Hs]; intros g g' K; apply K).
    split; intros H.
    + inversion H as [| | | |m0 subs0 F1 F2 F3 F4 F5]; subst. constructor; [eapply shapes_wf; eauto|exact F2| |rewrite Hm; exact F4|rewrite Hm; exact F5].
      intros Hc. apply F3. rewrite Hc in Hl. destruct subs; [reflexivity|discriminate].
    + inversion H; subst. constructor. eapply shapes_live; eauto.
Qed.

Lemma mem_length names sts : NoDup names -> NoDup sts -> incl sts names -> length (filter (fun b : bool => b) (mem names sts)) = length sts.
Proof.
  intros Hn Hs Hi. transitivity (length (filter (fun nm => str_in nm sts) names)).
  - unfold mem. clear. induction names as [|a l IH]; cbn; [reflexivity|]. destruct (str_in a sts); cbn; congruence.
  - apply Permutation_length, NoDup_Permutation; [apply NoDup_filter, Hn|exact Hs|]. intros x. rewrite filter_In, str_in_true. split; [tauto|]. intros Hx. split; [now apply Hi|exact Hx].
Qed.
Lemma same_count names k (g g' : gen N) : NoDup names -> gen_inv names k g -> wf names g' -> live names g' -> g_mask g' = g_mask g -> gen_inv names k g' /\ length (shown g') = k.
Proof.
  intros Hn (W & L & K) W' L' Hm. destruct (wf_states _ _ W) as (M1 & D1 & I1 & S1). destruct (wf_states _ _ W') as (M2 & D2 & I2 & S2).
  assert (E : length (ref_states g') = k).
  { rewrite <- K. rewrite <- (mem_length names (ref_states g) Hn D1 I1), <- (mem_length names (ref_states g') Hn D2 I2). congruence. }
  split; [split; [exact W'|split; [exact L'|exact E]]|congruence].
Qed.
Lemma placed_length names st o : length (placed names st o) = length names.
Proof. unfold placed. now rewrite map_length. Qed.
(** The three calls of the environment. *)
Lemma gen_reset names k g : NoDup names -> gen_inv names k g ->
  exists g' rf o, RefGen_Model.reset None g = Ok (g', (rf, o)) /\ gen_inv names k g' /\ RefGen_Proofs2.ready g' /\ length rf = length names /\ length o = k.
Proof.
  intros Hn G. pose proof G as (W & L & K). destruct (reset_ok HN names g None W L I) as (g' & rf & o & E & L' & R' & Lr). destruct (reset_keeps names _ _ _ _ _ E) as (Hm & _ & Hw & _).
  destruct (Hw W) as [W' ->]. destruct (same_count names k g g' Hn G W' L' Hm) as [G' Ho]. exists g', rf, (shown g'). auto.
Qed.
Lemma gen_get names k g : NoDup names -> gen_inv names k g -> RefGen_Proofs2.ready g ->
  exists g' r, get_reference g = Ok (g', r) /\ gen_inv names k g' /\ RefGen_Proofs2.ready g' /\ length r = length names.
Proof.
  intros Hn G R. pose proof G as (W & L & K). destruct (get_reference_ok _ _ W) as (g' & r & E & W' & Hm & _ & _ & Hr & _ & ->). destruct (get_reference_live names g g' _ W E) as [L' R'].
  exists g', (placed names (ref_states g) (shown g)). split; [exact E|]. split; [split; [exact W'|split; [auto|congruence]]|]. split; [auto|apply placed_length].
Qed.
Lemma gen_obs names k g : NoDup names -> gen_inv names k g -> RefGen_Proofs2.ready g ->
  exists g' o, get_obs g = Ok (g', o) /\ gen_inv names k g' /\ RefGen_Proofs2.ready g' /\ length o = k.
Proof.
  intros Hn G R. pose proof G as (W & L & K). destruct (obs_ok HN names g W L R) as (g' & o & E & L' & R'). destruct (obs_keeps names _ _ _ E) as (Hm & _ & Hw & _).
  destruct (Hw W) as [W' ->]. destruct (same_count names k g g' Hn G W' L' Hm) as [G' Ho]. exists g', (shown g'). auto.
Qed.
Lemma gen_seed names k h g path : gen_inv names k g -> gen_inv names k (g_reseed h path g).
Proof. intros (W & L & K). destruct (reseed_shape names h g path) as (_ & _ & E & HW & HL). split; [auto|]. split; [auto|congruence]. Qed.
End Gen.
