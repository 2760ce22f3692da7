(** Proofs about reference generators. *)
From Verif Require Import PyBaseFacts PyDictFacts Utils_Model Utils_Spec Utils_Proofs Solver_Model Solver_Proofs RefGen_Model RefGen_Spec.

Lemma Ok_inj {A} (a b : A) : Ok a = Ok b -> a = b.
Proof. congruence. Qed.
Ltac bindh H :=
  match type of H with
  | bind ?r _ = Ok _ => let E := fresh "E" in let v := fresh "v" in destruct r as [v|] eqn:E; cbn [bind] in H; [|discriminate H]
  end.

Lemma nth_ext_eq {A} (l m : list A) : (forall i, nth_error l i = nth_error m i) -> l = m.
Proof.
  revert m. induction l as [|x l IH]; intros [|y m] H; [reflexivity|specialize (H 0%nat); discriminate|specialize (H 0%nat); discriminate|].
  pose proof (H 0%nat) as H0. injection H0 as ->. f_equal. apply IH. intros i. exact (H (S i)).
Qed.

(** ** Induction over trees *)
Section Ind.
Context {N : numpy} (P : gen N -> Prop).
Context (Hc : forall s v m, P (GConst s v m)) (Hz : forall n, P (GZero n)) (Hs : forall s, P (GSub s))
  (Hw : forall w subs, Forall P subs -> P (GSwitched w subs)) (Hm : forall m subs, Forall P subs -> P (GMultiple m subs)).
Fixpoint gen_tree_ind (g : gen N) : P g :=
  let all := fix all (l : list (gen N)) : Forall P l := match l with [] => Forall_nil P | x :: l' => Forall_cons x (gen_tree_ind x) (all l') end in
  match g with
  | GConst s v m => Hc s v m | GZero n => Hz n | GSub s => Hs s
  | GSwitched w subs => Hw w subs (all subs) | GMultiple m subs => Hm m subs (all subs)
  end.
End Ind.

(** ** Lists of calls *)
Lemma each_cons {A B} (f : A -> res (A * B)) x l : each f (x :: l) = do y <- f x; do ys <- each f l; Ok (fst y :: fst ys, snd y :: snd ys).
Proof. reflexivity. Qed.
Lemma at_nth_0 {A B} (f : A -> res (A * B)) x l : at_nth f 0 (x :: l) = do y <- f x; Ok (fst y :: l, snd y).
Proof. reflexivity. Qed.
Lemma at_nth_S {A B} (f : A -> res (A * B)) i x l : at_nth f (S i) (x :: l) = do y <- at_nth f i l; Ok (x :: fst y, snd y).
Proof. reflexivity. Qed.
Lemma each_inv {A B} (f : A -> res (A * B)) l l' bs : each f l = Ok (l', bs) ->
  exists ps, l' = map fst ps /\ bs = map snd ps /\ Forall2 (fun x p => f x = Ok p) l ps.
Proof.
  revert l' bs. induction l as [|x l IH]; intros l' bs H.
  - injection H as <- <-. exists []. auto.
  - rewrite each_cons in H. destruct (f x) as [[x' b]|] eqn:E; cbn [bind] in H; [|discriminate]. destruct (each f l) as [[l1 b1]|] eqn:E1; cbn [bind fst snd] in H; [|discriminate].
    injection H as <- <-. destruct (IH _ _ eq_refl) as (ps & -> & -> & Hf). exists ((x', b) :: ps). cbn. auto.
Qed.
Lemma each_intro {A B} (f : A -> res (A * B)) l ps : Forall2 (fun x p => f x = Ok p) l ps -> each f l = Ok (map fst ps, map snd ps).
Proof.
  induction 1 as [|x [x' b] l ps Hx Hl IH]; [reflexivity|]. rewrite each_cons, Hx. cbn [bind]. rewrite IH. reflexivity.
Qed.
Lemma at_nth_inv {A B} (f : A -> res (A * B)) i l l' b : at_nth f i l = Ok (l', b) ->
  exists x x', nth_error l i = Some x /\ f x = Ok (x', b) /\ l' = list_set i x' l.
Proof.
  revert i l'. induction l as [|x l IH]; intros i l' H; [destruct i; discriminate|]. destruct i as [|i]; [rewrite at_nth_0 in H|rewrite at_nth_S in H].
  - destruct (f x) as [[x' b']|] eqn:E; cbn [bind fst snd] in H; [|discriminate]. injection H as <- <-. exists x, x'. auto.
  - destruct (at_nth f i l) as [[l1 b1]|] eqn:E; cbn [bind fst snd] in H; [|discriminate]. injection H as <- <-.
    destruct (IH _ _ E) as (y & y' & H1 & H2 & ->). exists y, y'. auto.
Qed.
Lemma at_nth_intro {A B} (f : A -> res (A * B)) i l x x' b : nth_error l i = Some x -> f x = Ok (x', b) -> at_nth f i l = Ok (list_set i x' l, b).
Proof.
  revert i. induction l as [|y l IH]; intros i Hn Hf; [destruct i; discriminate|]. destruct i as [|i]; [rewrite at_nth_0|rewrite at_nth_S]; cbn [nth_error] in Hn.
  - injection Hn as ->. rewrite Hf. reflexivity.
  - rewrite (IH i Hn Hf). reflexivity.
Qed.
Lemma nth_error_nth_map {A B} (f : A -> B) l i d x : nth_error l i = Some x -> nth i (map f l) d = f x.
Proof. revert i. induction l as [|y l IH]; intros i H; [destruct i; discriminate|]. destruct i; cbn in *; [congruence|auto]. Qed.
Lemma in_list_set {A} i (v : A) l y : In y (list_set i v l) -> y = v \/ In y l.
Proof.
  revert i. induction l as [|x l IH]; intros i H; [destruct i; contradiction|]. destruct i; cbn in *.
  - destruct H; auto.
  - destruct H as [H|H]; [auto|]. destruct (IH _ H); auto.
Qed.
Lemma list_set_forall {A} (P : A -> Prop) i v l : Forall P l -> P v -> Forall P (list_set i v l).
Proof. intros Hl Hv. apply Forall_forall. intros y Hy. destruct (in_list_set _ _ _ _ Hy) as [->|H]; [exact Hv|]. rewrite Forall_forall in Hl. auto. Qed.
Lemma list_set_same {A} i (v : A) l x : nth_error l i = Some x -> nth_error (list_set i v l) i = Some v.
Proof. intros H. rewrite list_set_nth_error, Nat.eqb_refl. assert (i < length l)%nat by (apply nth_error_Some; congruence). now destruct (Nat.ltb_spec i (length l)); [|lia]. Qed.
Lemma map_list_set {A B} (f : A -> B) i v l x : nth_error l i = Some x -> f v = f x -> map f (list_set i v l) = map f l.
Proof.
  revert i. induction l as [|y l IH]; intros i H Hf; [destruct i; discriminate|]. destruct i; cbn in *; [injection H as ->; now rewrite Hf|]. now rewrite (IH _ H Hf).
Qed.

(** ** Masks *)
Lemma state_mask_spec s names m : NoDup names -> state_mask s names = Ok m -> In (lower s) names /\ m = map (String.eqb (lower s)) names.
Proof.
  intros Hn H. unfold state_mask in H. bindh H. apply Ok_inj in H. subst m.
  destruct (set_state_array_dict [(s, 1)] names Hn) as [[E0 _]|[Hin (arr & E0 & Hlen & Hv)]]; rewrite E in E0; [discriminate|]. injection E0 as <-.
  split; [apply Hin; cbn; auto|]. apply nth_ext_eq. intros i. rewrite !nth_error_map.
  destruct (nth_error names i) as [nm|] eqn:En.
  - rewrite (Hv _ _ En). cbn. destruct (String.eqb (lower s) nm); cbn; f_equal; [destruct (reqP 1 0)|destruct (reqP 0 0)]; cbn; try reflexivity; lra.
  - apply nth_error_None in En. rewrite <- Hlen in En. apply nth_error_None in En. now rewrite En.
Qed.
Lemma state_mask_ok s names : NoDup names -> In (lower s) names -> state_mask s names = Ok (map (String.eqb (lower s)) names).
Proof.
  intros Hn Hin. destruct (state_mask s names) as [m|] eqn:E; [now destruct (state_mask_spec _ _ _ Hn E) as [_ ->]|]. exfalso. unfold state_mask in E.
  destruct (set_state_array_dict [(s, 1)] names Hn) as [[_ (k & [<-|[]] & H2)]|[_ (arr & E0 & _)]]; [auto|]. rewrite E0 in E. discriminate.
Qed.
Lemma masked_ok {A} mask (l : list A) : length mask = length l -> exists r, masked mask l = Ok r.
Proof.
  revert l. induction mask as [|b mask IH]; intros [|a l] H; try discriminate; cbn; [eauto|]. destruct (IH l ltac:(cbn in H; lia)) as [r ->]. cbn. eauto.
Qed.
Lemma pick_spec {A} s names (l : list A) x : NoDup names -> In (lower s) names -> pick (map (String.eqb (lower s)) names) l = Ok x ->
  exists i, nth_error names i = Some (lower s) /\ nth_error l i = Some x.
Proof.
  intros _ Hin. unfold pick. revert l. induction names as [|nm names IH]; intros l H; [contradiction|]. destruct l as [|a l]; [discriminate|].
  cbn [map masked] in H. destruct (masked (map (String.eqb (lower s)) names) l) as [r|] eqn:E; cbn [bind] in H; [|discriminate].
  destruct (String.eqb_spec (lower s) nm) as [<-|Hd]; cbn [bind] in H.
  - injection H as ->. exists 0%nat. auto.
  - destruct Hin as [Hin|Hin]; [congruence|]. destruct (IH Hin l) as (i & H1 & H2); [rewrite E; exact H|]. exists (S i). auto.
Qed.
Lemma pick_ok {A} s names (l : list A) : In (lower s) names -> length l = length names -> exists x, pick (map (String.eqb (lower s)) names) l = Ok x.
Proof.
  intros Hin. unfold pick. revert l. induction names as [|nm names IH]; intros l H; [contradiction|]. destruct l as [|a l]; [discriminate|].
  cbn [map masked]. destruct (masked_ok (map (String.eqb (lower s)) names) l) as [r Er]; [rewrite map_length; cbn in H; lia|]. rewrite Er. cbn [bind].
  destruct (String.eqb_spec (lower s) nm) as [<-|Hd]; [eauto|]. destruct Hin as [Hin|Hin]; [congruence|]. destruct (IH Hin l ltac:(cbn in H; lia)) as [x Hx].
  rewrite Er in Hx. cbn [bind] in Hx. eauto.
Qed.

(** ** What a tree shows at the moment (ghost) *)
Section Shown.
Context {N : numpy}.
Fixpoint shown (g : gen N) : list R :=
  match g with
  | GConst _ v _ => [v] | GZero _ => [] | GSub s => [s_value s]
  | GSwitched w subs => nth (sw_cur w) (map shown subs) []
  | GMultiple _ subs => flat_map shown subs
  end.

(** Position of a name. *)
Fixpoint lookup (nm : string) (st : list string) (o : list R) : option R :=
  match st, o with
  | s :: st', v :: o' => if String.eqb s nm then Some v else lookup nm st' o'
  | _, _ => None
  end.
Definition orz (x : option R) : R := match x with Some v => v | None => 0 end.
Definition placed (names st : list string) (o : list R) : list R := map (fun nm => orz (lookup nm st o)) names.

Lemma lookup_none nm st o : ~ In nm st -> lookup nm st o = None.
Proof. revert o. induction st as [|s st IH]; intros [|v o] H; cbn; try reflexivity. destruct (String.eqb_spec s nm); [subst; exfalso; apply H; now left|]. apply IH. intros Hi. apply H. now right. Qed.
Lemma lookup_some nm st o i v : NoDup st -> nth_error st i = Some nm -> nth_error o i = Some v -> lookup nm st o = Some v.
Proof.
  revert o i. induction st as [|s st IH]; intros o i Hn H1 H2; [destruct i; discriminate|]. destruct o as [|w o]; [destruct i; discriminate|]. inversion Hn as [|? ? Hni Hn']; subst.
  destruct i as [|i]; cbn in *; [injection H1 as ->; injection H2 as ->; now rewrite String.eqb_refl|].
  destruct (String.eqb_spec s nm) as [->|]; [exfalso; apply Hni; eapply nth_error_In; eauto|eauto].
Qed.
Lemma lookup_app nm s1 s2 o1 o2 : length s1 = length o1 -> lookup nm (s1 ++ s2) (o1 ++ o2) = match lookup nm s1 o1 with Some v => Some v | None => lookup nm s2 o2 end.
Proof. revert o1. induction s1 as [|s s1 IH]; intros [|v o1] H; try discriminate; cbn; [reflexivity|]. destruct (String.eqb s nm); [reflexivity|]. apply IH. cbn in H. lia. Qed.
Lemma placed_reference names st o : NoDup st -> length o = length st -> reference_of names st o (placed names st o).
Proof.
  intros Hn Hl. split; [apply map_length|]. split; [exact Hl|]. intros j nm Hj. unfold placed. rewrite nth_error_map, Hj. cbn. split.
  - intros i v H1 H2. now rewrite (lookup_some _ _ _ _ _ Hn H1 H2).
  - intros H. now rewrite (lookup_none _ _ _ H).
Qed.

(** ** Well-formed (announced) trees *)
Inductive wf (nms : list string) : gen N -> Prop :=
| wf_const s v m : In (lower s) nms -> m = map (String.eqb (lower s)) nms -> wf nms (GConst s v m)
| wf_zero n : n = length nms -> wf nms (GZero n)
| wf_sub s : In (lower (s_state s)) nms -> s_mask s = map (String.eqb (lower (s_state s))) nms -> wf nms (GSub s)
| wf_switched w subs : Forall (wf nms) subs -> Forall (fun x => g_mask x = sw_mask w /\ length (fst (g_space x)) = length (fst (sw_space w))) subs -> (sw_cur w < length subs)%nat -> wf nms (GSwitched w subs)
| wf_multiple m subs : Forall (wf nms) subs -> mu_n m = length nms -> subs <> [] ->
    mu_mask m = map (fun c => negb (Nat.eqb c 0)) (count_mask (length nms) (map g_mask subs)) ->
    Forall (fun c => (c < 2)%nat) (count_mask (length nms) (map g_mask subs)) -> wf nms (GMultiple m subs).

Definition mem (nms st : list string) : list bool := map (fun nm => str_in nm st) nms.

Lemma count_spec nms sts : count_mask (length nms) (map (mem nms) sts) = map (fun nm => length (filter (str_in nm) sts)) nms.
Proof.
  induction sts as [|st sts IH]; [cbn; induction nms as [|nm nms IHn]; cbn; [reflexivity|now rewrite IHn]|].
  unfold count_mask in *. cbn [map fold_right]. rewrite IH. clear IH. unfold mem. induction nms as [|nm nms IHn]; [reflexivity|]. cbn [map map2 filter]. rewrite IHn.
  f_equal. destruct (str_in nm st); reflexivity.
Qed.
Lemma nodup_flat {A} (f : A -> list string) l : (forall x, In x l -> NoDup (f x)) -> (forall nm, (length (filter (str_in nm) (map f l)) < 2)%nat) -> NoDup (flat_map f l).
Proof.
  induction l as [|x l IH]; intros Hn Hc; cbn; [constructor|].
  assert (Hx : forall nm, In nm (f x) -> ~ In nm (flat_map f l)).
  { intros nm Hi Hj. specialize (Hc nm). cbn in Hc. rewrite (proj2 (str_in_true _ _) Hi) in Hc. cbn in Hc. apply in_flat_map in Hj. destruct Hj as (y & Hy & Hny).
    assert (In (f y) (filter (str_in nm) (map f l))) by (apply filter_In; split; [now apply in_map|now apply str_in_true]).
    destruct (filter (str_in nm) (map f l)); [contradiction|cbn in Hc; lia]. }
  assert (Hd : NoDup (flat_map f l)).
  { apply IH; [intros y Hy; apply Hn; now right|]. intros nm. specialize (Hc nm). cbn in Hc. destruct (str_in nm (f x)); cbn in Hc; lia. }
  assert (Hf : NoDup (f x)) by (apply Hn; now left). clear - Hx Hd Hf. induction (f x) as [|a l0 IH0]; cbn; [exact Hd|]. inversion Hf as [|? ? H1 H2]; subst. constructor.
  - rewrite in_app_iff. intros [H|H]; [auto|]. apply (Hx a); [now left|exact H].
  - apply IH0; [intros nm Hi; apply Hx; now right|exact H2].
Qed.

Lemma wf_states nms g : wf nms g -> g_mask g = mem nms (ref_states g) /\ NoDup (ref_states g) /\ incl (ref_states g) nms /\ length (shown g) = length (ref_states g).
Proof.
  induction g as [s v m|n|s|w subs IH|m subs IH] using gen_tree_ind; intros H;
    [inversion H as [s0 v0 m0 F1 F2 | | | |]|inversion H as [|n0 F1| | |]|inversion H as [| |s0 F1 F2| |]|inversion H as [| | |w0 subs0 F1 F2 F3|]|inversion H as [| | | |m0 subs0 F1 F2 F3 F4 F5]]; subst; cbn.
  - split; [unfold mem; apply map_ext; intros nm; cbn; rewrite Bool.orb_false_r; now rewrite String.eqb_sym|]. split; [constructor; [auto|constructor]|]. split; [|reflexivity]. intros x [<-|[]]. assumption.
  - split; [unfold mem; induction nms; cbn; [reflexivity|f_equal; apply IHnms; constructor; reflexivity]|]. split; [constructor|]. split; [intros x []|reflexivity].
  - rewrite F2. split; [unfold mem; apply map_ext; intros nm; cbn; rewrite Bool.orb_false_r; now rewrite String.eqb_sym|]. split; [constructor; [auto|constructor]|]. split; [|reflexivity]. intros x [<-|[]]. assumption.
  - destruct (nth_error subs (sw_cur w)) as [x|] eqn:E; [|apply nth_error_None in E; lia]. rewrite !(nth_error_nth_map _ _ _ _ _ E). pose proof (nth_error_In _ _ E) as Hin.
    rewrite Forall_forall in *. destruct (IH x Hin) as (E1 & E2 & E3 & E4); [auto|]. destruct (F2 x Hin) as [E5 _]. rewrite <- E5. auto.
  - assert (Hall : forall x, In x subs -> g_mask x = mem nms (ref_states x) /\ NoDup (ref_states x) /\ incl (ref_states x) nms /\ length (shown x) = length (ref_states x)) by (intros x Hx; rewrite Forall_forall in *; auto).
    assert (Em : map g_mask subs = map (mem nms) (map ref_states subs)) by (rewrite map_map; apply map_ext_in; intros x Hx; apply Hall; exact Hx).
    rewrite F4. rewrite Em, count_spec in *.
    assert (Hincl : incl (flat_map ref_states subs) nms) by (intros nm Hi; apply in_flat_map in Hi; destruct Hi as (x & Hx & Hnm); apply (Hall x Hx); exact Hnm).
    split; [|split; [|split; [exact Hincl|]]].
    + rewrite map_map. apply map_ext_in. intros nm Hnm. clear - Hnm. unfold mem. destruct (str_in nm (flat_map ref_states subs)) eqn:E.
      * apply str_in_true in E. apply in_flat_map in E. destruct E as (x & Hx & Hi).
        assert (In (ref_states x) (filter (str_in nm) (map ref_states subs))) as Hf by (apply filter_In; split; [now apply in_map|now apply str_in_true]).
        destruct (filter _ _); [contradiction|reflexivity].
      * apply str_in_false in E. destruct (filter (str_in nm) (map ref_states subs)) as [|st l] eqn:Ef; [reflexivity|]. exfalso.
        assert (Hi : In st (filter (str_in nm) (map ref_states subs))) by (rewrite Ef; now left). apply filter_In in Hi. destruct Hi as [Hi1 Hi2].
        apply in_map_iff in Hi1. destruct Hi1 as (x & <- & Hx). apply str_in_true in Hi2. apply E. apply in_flat_map. eauto.
    + apply nodup_flat; [intros x Hx; apply (Hall x Hx)|]. intros nm. destruct (str_in nm nms) eqn:Enm.
      * apply str_in_true in Enm. rewrite Forall_forall in F5. apply F5. now apply (in_map (fun nm => length (filter (str_in nm) (map ref_states subs)))).
      * apply str_in_false in Enm. assert (E : filter (str_in nm) (map ref_states subs) = []); [|rewrite E; cbn; lia].
        destruct (filter (str_in nm) (map ref_states subs)) as [|st l] eqn:Ef; [reflexivity|]. exfalso.
        assert (Hi : In st (filter (str_in nm) (map ref_states subs))) by (rewrite Ef; now left). apply filter_In in Hi. destruct Hi as [Hi1 Hi2].
        apply in_map_iff in Hi1. destruct Hi1 as (x & <- & Hx). apply str_in_true in Hi2. apply Enm. now apply (Hall x Hx).
    + clear - Hall. induction subs as [|x subs IH]; [reflexivity|]. cbn. rewrite !app_length, IH by (intros y Hy; apply Hall; now right).
      f_equal. apply Hall. now left.
Qed.
End Shown.

(** ** Single sub-episoded generators *)
Section SubFacts.
Context {N : numpy}.
Definition same_config (s s' : sub N) : Prop :=
  s_state s' = s_state s /\ s_lens s' = s_lens s /\ s_margin s' = s_margin s /\ s_kind s' = s_kind s /\ s_mask s' = s_mask s /\ s_space s' = s_space s /\ s_tau s' = s_tau s.
Lemma same_config_refl s : same_config s s.
Proof. repeat split. Qed.
Lemma same_config_trans a b c : same_config a b -> same_config b c -> same_config a c.
Proof. unfold same_config. intuition congruence. Qed.

Lemma walk_inside lo hi v rs : lo <= hi -> Forall (fun x => lo <= x <= hi) (walk lo hi v rs).
Proof.
  intros H. revert v. induction rs as [|r rs IH]; intros v; cbn [walk]; [constructor|]. constructor; [|apply IH].
  destruct (rltP hi (v + r)) as [H1|H1].
  - destruct (rltP hi lo); lra.
  - destruct (rltP (v + r) lo); lra.
Qed.
Lemma walk_length lo hi v rs : length (walk lo hi v rs) = length rs.
Proof. revert v. induction rs as [|r rs IH]; intros v; cbn [walk length]; [reflexivity|]. now rewrite IH. Qed.
Lemma clip_inside (f : R -> R) lo hi l : lo <= hi -> Forall (fun x => lo <= x <= hi) (map (fun t => np_clip (f t) lo hi) l).
Proof. intros H. apply Forall_forall. intros x Hx. apply in_map_iff in Hx. destruct Hx as (t & <- & _). split; [now apply np_clip_lb|apply np_clip_ub]. Qed.

Lemma new_reference_inside k lo hi v tau n (g : np_gen N) r g' : lo <= hi -> new_reference k lo hi v tau n g = Ok (r, g') -> Forall (fun x => lo <= x <= hi) r.
Proof.
  intros Hlh H. unfold new_reference in H. destruct (n <? 0)%Z; [discriminate|].
  destruct k as [sg i|sg|w|w|w|w]; bindh H.
  - destruct (np_normal N (fst v0) (Z.to_nat n) (snd v0)) as [rs g1]. injection H as <- _. now apply walk_inside.
  - destruct (np_laplace N (fst v0) (Z.to_nat n) (snd v0)) as [rs g1]. injection H as <- _. now apply walk_inside.
  - destruct v0 as [[[a f] o] g1]. destruct (np_uniform N g1) as [u g2]. injection H as <- _. now apply clip_inside.
  - destruct v0 as [[[a f] o] g1]. destruct (np_uniform N g1) as [u g2]. destruct (np_uniform N g2) as [wd g3]. injection H as <- _. now apply clip_inside.
  - destruct v0 as [[[a f] o] g1]. destruct (np_uniform N g1) as [u g2]. injection H as <- _. now apply clip_inside.
  - destruct v0 as [[[a f] o] g1]. destruct (np_triangular N g1) as [u g2]. destruct (req f 0); [discriminate|]. destruct (np_uniform N g2) as [ph g3]. injection H as <- _. now apply clip_inside.
Qed.
Lemma new_reference_length k lo hi v tau n (g : np_gen N) r g' : numpy_ok N -> new_reference k lo hi v tau n g = Ok (r, g') -> (0 <= n)%Z /\ length r = Z.to_nat n.
Proof.
  intros HN H. unfold new_reference in H. destruct (Z.ltb_spec n 0); [discriminate|]. split; [assumption|].
  assert (Hl : forall st, length (np_linspace st (Z.to_nat n)) = Z.to_nat n) by (intros st; unfold np_linspace; rewrite map_length, seq_length; reflexivity).
  destruct k as [sg i|sg|w|w|w|w]; bindh H.
  - pose proof (ok_normal _ HN (fst v0) (Z.to_nat n) (snd v0)) as L. destruct (np_normal N (fst v0) (Z.to_nat n) (snd v0)) as [rs g1]. injection H as <- _. now rewrite walk_length.
  - pose proof (ok_laplace _ HN (fst v0) (Z.to_nat n) (snd v0)) as L. destruct (np_laplace N (fst v0) (Z.to_nat n) (snd v0)) as [rs g1]. injection H as <- _. now rewrite walk_length.
  - destruct v0 as [[[a f] o] g1]. destruct (np_uniform N g1) as [u g2]. injection H as <- _. now rewrite map_length.
  - destruct v0 as [[[a f] o] g1]. destruct (np_uniform N g1) as [u g2]. destruct (np_uniform N g2) as [wd g3]. injection H as <- _. now rewrite map_length.
  - destruct v0 as [[[a f] o] g1]. destruct (np_uniform N g1) as [u g2]. injection H as <- _. now rewrite map_length.
  - destruct v0 as [[[a f] o] g1]. destruct (np_triangular N g1) as [u g2]. destruct (req f 0); [discriminate|]. destruct (np_uniform N g2) as [ph g3]. injection H as <- _.
    unfold np_roll. rewrite !map_length, seq_length, ?map_length. apply Hl.
Qed.

(** What one observation does. *)
Lemma sub_obs_inv (s s' : sub N) o : sub_obs s = Ok (s', o) ->
  exists s1 r v, s_ref s1 = Some r /\ nth_error r (s_k s1) = Some v /\ o = [v] /\
    s' = sub_with s1 v (s_len s1) (S (s_k s1)) (s_ref s1) (s_seq s1) (s_gen s1) /\
    ((Z.of_nat (s_k s) < s_len s)%Z /\ s1 = s \/
     (s_len s <= Z.of_nat (s_k s))%Z /\ exists l g1 lo hi g2, current_value (s_lens s) (s_gen s) = Ok (l, g1) /\ s_margin s = LmPair lo hi /\
       new_reference (s_kind s) lo hi (s_value s) (s_tau s) (py_int l) g1 = Ok (r, g2) /\
       s1 = sub_with s (s_value s) (py_int l) 0 (Some r) (s_seq s) g2).
Proof.
  unfold sub_obs. intros H. destruct (Z.leb_spec (s_len s) (Z.of_nat (s_k s))) as [Hl|Hl].
  - destruct (current_value (s_lens s) (s_gen s)) as [[l g1]|] eqn:E1; cbn [bind fst snd] in H; [|discriminate].
    destruct (s_margin s) as [|x|lo hi|] eqn:Em; cbn [bounds bind fst snd] in H; try discriminate.
    destruct (new_reference (s_kind s) lo hi (s_value s) (s_tau s) (py_int l) g1) as [[r g2]|] eqn:E2; cbn [bind fst snd] in H; [|discriminate].
    set (s1 := sub_with s (s_value s) (py_int l) 0 (Some r) (s_seq s) g2) in *. change (s_ref s1) with (Some r) in H. cbn match in H.
    destruct (nth_error r (s_k s1)) as [v|] eqn:E3; [|discriminate]. apply Ok_inj in H. pose proof (f_equal fst H) as H1. pose proof (f_equal snd H) as H2. cbn [fst snd] in H1, H2.
    exists s1, r, v. split; [reflexivity|]. split; [exact E3|]. split; [now rewrite <- H2|]. split; [rewrite <- H1; reflexivity|]. right. split; [exact Hl|]. exists l, g1, lo, hi, g2. auto.
  - cbn [bind] in H. destruct (s_ref s) as [r|] eqn:E; [|discriminate]. destruct (nth_error r (s_k s)) as [v|] eqn:E3; [|discriminate]. apply Ok_inj in H. pose proof (f_equal fst H) as H1. pose proof (f_equal snd H) as H2. cbn [fst snd] in H1, H2.
    exists s, r, v. split; [exact E|]. split; [exact E3|]. split; [now rewrite <- H2|]. split; [rewrite E; now rewrite <- H1|]. left. auto.
Qed.
Lemma sub_obs_static (s s' : sub N) o : sub_obs s = Ok (s', o) -> o = [s_value s'] /\ same_config s s'.
Proof.
  intros H. destruct (sub_obs_inv _ _ _ H) as (s1 & r & v & _ & _ & -> & -> & [[_ ->]|(_ & l & g1 & lo & hi & g2 & _ & _ & _ & ->)]); split; try reflexivity; repeat split.
Qed.
(** Invariant: references inside the interval. *)
Definition boxed_sub (s : sub N) : Prop :=
  exists lo hi, s_margin s = LmPair lo hi /\ s_space s = (lo, hi) /\ lo <= hi /\ forall r, s_ref s = Some r -> Forall (fun x => lo <= x <= hi) r.
Lemma sub_obs_boxed (s s' : sub N) o : boxed_sub s -> sub_obs s = Ok (s', o) -> boxed_sub s' /\ fst (s_space s) <= s_value s' <= snd (s_space s).
Proof.
  intros (lo & hi & M & Sp & Hlh & Hr) H. rewrite Sp. cbn [fst snd].
  destruct (sub_obs_inv _ _ _ H) as (s1 & r & v & E1 & E2 & -> & -> & C).
  assert (Hin : Forall (fun x => lo <= x <= hi) r /\ s_margin s1 = LmPair lo hi /\ s_space s1 = (lo, hi)).
  { destruct C as [[_ ->]|(_ & l & g1 & lo' & hi' & g2 & _ & M' & Hn & ->)]; [auto|]. rewrite M in M'. injection M' as <- <-. split; [now apply new_reference_inside in Hn|]. cbn. auto. }
  destruct Hin as (F & M1 & S1). split.
  - exists lo, hi. cbn. split; [exact M1|]. split; [exact S1|]. split; [exact Hlh|]. intros r' E'. congruence.
  - cbn. rewrite Forall_forall in F. apply F. eapply nth_error_In; eauto.
Qed.
Lemma sub_reset_inv init (s s' : sub N) rf o : sub_reset init s = Ok (s', (rf, o)) ->
  exists v seq g, np_spawn N (s_seq s) = (g, seq) /\ sub_obs (sub_with s v (-1) (s_k s) (s_ref s) seq g) = Ok (s', o) /\ rf = put_masked (s_mask s) v.
Proof.
  unfold sub_reset. intros H. bindh H. bindh H. destruct (np_spawn N (s_seq s)) as [g seq] eqn:Es. bindh H. destruct v1 as [s1 o1]. apply Ok_inj in H. injection H as <- <- <-.
  exists v0, seq, g. auto.
Qed.
Lemma sub_reset_static init (s s' : sub N) rf o : sub_reset init s = Ok (s', (rf, o)) -> o = [s_value s'] /\ same_config s s'.
Proof.
  intros H. destruct (sub_reset_inv _ _ _ _ _ H) as (v & seq & g & _ & H1 & _). destruct (sub_obs_static _ _ _ H1) as [H2 H3]. split; [exact H2|].
  eapply same_config_trans; [|exact H3]. repeat split.
Qed.
Lemma sub_reset_boxed init (s s' : sub N) rf o : boxed_sub s -> sub_reset init s = Ok (s', (rf, o)) -> boxed_sub s' /\ fst (s_space s) <= s_value s' <= snd (s_space s).
Proof.
  intros Hb H. destruct (sub_reset_inv _ _ _ _ _ H) as (v & seq & g & _ & H1 & _). apply (sub_obs_boxed _ _ _) in H1; [exact H1|]. exact Hb.
Qed.
End SubFacts.

(** ** Operations on trees *)
Section TreeFacts.
Context {N : numpy}.
Notation gen := (gen N).

(** Boxes *)
Inductive boxed : gen -> Prop :=
| bx_const s v m : boxed (GConst s v m)
| bx_zero n : boxed (GZero n)
| bx_sub s : boxed_sub s -> boxed (GSub s)
| bx_switched w subs : Forall boxed subs -> Forall (fun x => forall o, inside (g_space x) o -> inside (sw_space w) o) subs -> boxed (GSwitched w subs)
| bx_multiple m subs : Forall boxed subs -> mu_space m = (flat_map (fun x => fst (g_space x)) subs, flat_map (fun x => snd (g_space x)) subs) -> boxed (GMultiple m subs).

Lemma inside_nil : inside ([], []) [].
Proof. split; [reflexivity|]. split; [reflexivity|]. intros i lo hi v H. destruct i; discriminate. Qed.
Lemma inside_app l1 h1 o1 l2 h2 o2 : inside (l1, h1) o1 -> inside (l2, h2) o2 -> inside (l1 ++ l2, h1 ++ h2) (o1 ++ o2).
Proof.
  intros (A1 & A2 & A3) (B1 & B2 & B3). cbn [fst snd] in *. split; [cbn; rewrite !app_length; lia|]. split; [cbn; rewrite !app_length; lia|].
  intros i lo hi v. cbn [fst snd]. destruct (Nat.lt_ge_cases i (length o1)) as [Hi|Hi].
  - rewrite !nth_error_app1 by lia. apply A3.
  - rewrite !nth_error_app2 by lia. rewrite A1, A2. apply B3.
Qed.
Lemma inside_single lo hi v : lo <= v <= hi -> inside ([lo], [hi]) [v].
Proof. intros H. split; [reflexivity|]. split; [reflexivity|]. intros [|i] a b c; cbn; [|destruct i; discriminate]. intros H1 H2 H3. congruence. Qed.

(** What an operation that returns an observation must do. *)
Definition keeps nms (g g' : gen) (o : list R) : Prop :=
  g_mask g' = g_mask g /\ g_space g' = g_space g /\ (wf nms g -> wf nms g' /\ o = shown g') /\ (boxed g -> boxed g' /\ inside (g_space g) o).

Lemma keeps_leaf nms (s s' : sub N) o : o = [s_value s'] -> same_config s s' -> (boxed_sub s -> boxed_sub s' /\ fst (s_space s) <= s_value s' <= snd (s_space s)) -> keeps nms (GSub s) (GSub s') o.
Proof.
  intros -> (E1 & E2 & E3 & E4 & E5 & E6 & E7) Hb. split; [exact E5|]. split; [cbn; now rewrite E6|]. split.
  - intros H. inversion H as [| |s0 F1 F2| |]; subst. split; [constructor; rewrite ?E5, ?E1; assumption|reflexivity].
  - intros H. inversion H as [| |s0 F1| |]; subst. destruct (Hb F1) as [H1 H2]. split; [now constructor|]. cbn. now apply inside_single.
Qed.

Lemma keeps_switched nms w w' subs i x x' o : nth_error subs i = Some x -> keeps nms x x' o ->
  sw_mask w' = sw_mask w -> sw_space w' = sw_space w -> sw_cur w' = i -> keeps nms (GSwitched w subs) (GSwitched w' (list_set i x' subs)) o.
Proof.
  intros Hx (K1 & K2 & K3 & K4) Hm Hs Hc. pose proof (nth_error_In _ _ Hx) as Hin. assert (Hlt : (i < length subs)%nat) by (apply nth_error_Some; congruence). split; [exact Hm|]. split; [exact Hs|]. split.
  - intros H. inversion H as [| | |w0 subs0 F1 F2 F3|]; subst. rewrite Forall_forall in F1, F2. destruct (K3 (F1 x Hin)) as [K5 K6]. split.
    + constructor; [apply list_set_forall; [apply Forall_forall; exact F1|exact K5]| |rewrite list_set_length; exact Hlt].
      rewrite Hm, Hs. apply list_set_forall; [apply Forall_forall; exact F2|]. rewrite K1, K2. auto.
    + cbn. rewrite (nth_error_nth_map shown _ _ [] x' (list_set_same _ _ _ _ Hx)). exact K6.
  - intros H. inversion H as [| | |w0 subs0 F1 F2|]; subst. rewrite Forall_forall in F1, F2. destruct (K4 (F1 x Hin)) as [K5 K6]. split.
    + constructor; [apply list_set_forall; [apply Forall_forall; exact F1|exact K5]|]. rewrite Hs. apply list_set_forall; [apply Forall_forall; exact F2|]. rewrite K2. exact (F2 x Hin).
    + cbn. apply (F2 x Hin). exact K6.
Qed.
Lemma keeps_multiple nms m subs (ps : list (gen * list R)) : Forall2 (fun x p => keeps nms x (fst p) (snd p)) subs ps ->
  keeps nms (GMultiple m subs) (GMultiple m (map fst ps)) (concat (map snd ps)).
Proof.
  intros HF. split; [reflexivity|]. split; [reflexivity|].
  assert (Em : map g_mask (map fst ps) = map g_mask subs) by (induction HF as [|x p l ps (K1 & _) HF IH]; cbn; [reflexivity|now rewrite K1, IH]).
  assert (Es : map g_space (map fst ps) = map g_space subs) by (clear Em; induction HF as [|x p l ps (_ & K2 & _) HF IH]; cbn; [reflexivity|now rewrite K2, IH]).
  split.
  - intros H. inversion H as [| | | |m0 subs0 F1 F2 F3 F4 F5]; subst. split.
    + constructor; [|exact F2| |rewrite Em; exact F4|rewrite Em; exact F5].
      * clear - HF F1. induction HF as [|x p l ps (_ & _ & K3 & _) HF IH]; cbn; [constructor|]. inversion F1 as [|? ? A B]; subst. constructor; [now apply K3|auto].
      * destruct HF; [congruence|discriminate].
    + cbn. rewrite flat_map_concat_map. f_equal. clear - HF F1. induction HF as [|x p l ps (_ & _ & K3 & _) HF IH]; cbn; [reflexivity|]. inversion F1 as [|? ? A B]; subst.
      destruct (K3 A) as [_ ->]. f_equal. auto.
  - intros H. inversion H as [| | | |m0 subs0 F1 F2]; subst. split.
    + constructor.
      * clear - HF F1. induction HF as [|x p l ps (_ & _ & _ & K4) HF IH]; cbn; [constructor|]. inversion F1 as [|? ? A B]; subst. constructor; [now apply K4|auto].
      * rewrite F2. rewrite !flat_map_concat_map. rewrite <- !(map_map g_space fst), <- !(map_map g_space snd), Es. reflexivity.
    + cbn. rewrite F2. clear - HF F1. induction HF as [|x p l ps (_ & K2 & _ & K4) HF IH]; cbn; [apply inside_nil|]. inversion F1 as [|? ? A B]; subst.
      apply inside_app; [|exact (IH B)]. destruct (K4 A) as [_ K5]. destruct (g_space x). exact K5.
Qed.

Lemma reset_keeps nms g : forall init g' rf o, reset init g = Ok (g', (rf, o)) -> keeps nms g g' o.
Proof.
  induction g as [s v m|n|s|w subs IH|m subs IH] using gen_tree_ind; intros init g' rf o H; cbn [reset] in H.
  - apply Ok_inj in H. injection H as <- <- <-. split; [reflexivity|]. split; [reflexivity|]. split; [auto|]. intros Hb. split; [exact Hb|]. cbn. apply inside_single. lra.
  - apply Ok_inj in H. injection H as <- <- <-. split; [reflexivity|]. split; [reflexivity|]. split; [auto|]. intros Hb. split; [exact Hb|]. apply inside_nil.
  - bindh H. destruct v as [s' [rf' o']]. apply Ok_inj in H. injection H as <- <- <-. destruct (sub_reset_static _ _ _ _ _ E) as [H1 H2]. apply keeps_leaf; [exact H1|exact H2|]. intros Hb. exact (sub_reset_boxed _ _ _ _ _ Hb E).
  - destruct (np_spawn N (sw_seq w)) as [gn seq]. bindh H. bindh H. destruct v0 as [subs' [rf' o']]. apply Ok_inj in H. injection H as <- <- <-.
    destruct (at_nth_inv _ _ _ _ _ E0) as (x & x' & Hx & Hr & ->). rewrite Forall_forall in IH. apply (keeps_switched nms w v subs (sw_cur v) x x'); [exact Hx|exact (IH x (nth_error_In _ _ Hx) _ _ _ _ Hr)| | |reflexivity].
    + unfold sw_draw in E. bindh E. bindh E. apply Ok_inj in E. subst v. reflexivity.
    + unfold sw_draw in E. bindh E. bindh E. apply Ok_inj in E. subst v. reflexivity.
  - bindh H. destruct v as [subs' rs]. bindh H. apply Ok_inj in H. injection H as <- <- <-. cbn [fst snd] in *. destruct (each_inv _ _ _ _ E) as (ps & -> & -> & HF).
    assert (Ee : map fst ps = map fst (map (fun p : gen * (list R * list R) => (fst p, snd (snd p))) ps)) by (rewrite map_map; reflexivity).
    assert (Eo : map snd (map snd ps) = map snd (map (fun p : gen * (list R * list R) => (fst p, snd (snd p))) ps)) by (rewrite !map_map; reflexivity).
    rewrite Ee, Eo. apply keeps_multiple. clear - HF IH. induction HF as [|x [x' [rf o]] l ps Hx HF IHf]; cbn; [constructor|]. inversion IH as [|? ? A B]; subst. constructor; [exact (A _ _ _ _ Hx)|auto].
Qed.

Lemma obs_keeps nms g : forall g' o, get_obs g = Ok (g', o) -> keeps nms g g' o.
Proof.
  induction g as [s v m|n|s|w subs IH|m subs IH] using gen_tree_ind; intros g' o H; cbn [get_obs] in H.
  - apply Ok_inj in H. injection H as <- <-. split; [reflexivity|]. split; [reflexivity|]. split; [auto|]. intros Hb. split; [exact Hb|]. cbn. apply inside_single. lra.
  - apply Ok_inj in H. injection H as <- <-. split; [reflexivity|]. split; [reflexivity|]. split; [auto|]. intros Hb. split; [exact Hb|]. apply inside_nil.
  - bindh H. destruct v as [s' o']. apply Ok_inj in H. injection H as <- <-. destruct (sub_obs_static _ _ _ E) as [H1 H2]. apply keeps_leaf; [exact H1|exact H2|]. intros Hb. exact (sub_obs_boxed _ _ _ Hb E).
  - destruct (sw_len w <=? Z.of_nat (sw_k w))%Z.
    + bindh H. bindh H. destruct v0 as [subs' [rf' o']]. apply Ok_inj in H. injection H as <- <-.
      destruct (at_nth_inv _ _ _ _ _ E0) as (x & x' & Hx & Hr & ->). apply (keeps_switched nms w _ subs (sw_cur v) x x'); [exact Hx|exact (reset_keeps _ _ _ _ _ _ Hr)| | |reflexivity].
      * unfold sw_draw in E. bindh E. bindh E. apply Ok_inj in E. subst v. reflexivity.
      * unfold sw_draw in E. bindh E. bindh E. apply Ok_inj in E. subst v. reflexivity.
    + bindh H. destruct v as [subs' o']. apply Ok_inj in H. injection H as <- <-.
      destruct (at_nth_inv _ _ _ _ _ E) as (x & x' & Hx & Hr & ->). rewrite Forall_forall in IH. apply (keeps_switched nms w _ subs (sw_cur w) x x'); try reflexivity; [exact Hx|exact (IH x (nth_error_In _ _ Hx) _ _ Hr)].
  - bindh H. destruct v as [subs' rs]. apply Ok_inj in H. injection H as <- <-. cbn [fst snd] in *. destruct (each_inv _ _ _ _ E) as (ps & -> & -> & HF).
    apply keeps_multiple. clear - HF IH. induction HF as [|x [x' o] l ps Hx HF IHf]; cbn; [constructor|]. inversion IH as [|? ? A B]; subst. constructor; [exact (A _ _ Hx)|auto].
Qed.

(** [get_reference] never fails on announced trees, changes nothing that is shown, and
    returns what is shown. *)
Definition ref_result nms (g g' : gen) (r : list R) : Prop :=
  wf nms g' /\ g_mask g' = g_mask g /\ g_space g' = g_space g /\ shown g' = shown g /\ ref_states g' = ref_states g /\ (boxed g -> boxed g') /\ r = placed nms (ref_states g) (shown g).
Lemma put_masked_placed nms s v : put_masked (map (String.eqb (lower s)) nms) v = placed nms [lower s] [v].
Proof. unfold put_masked, placed. rewrite map_map. apply map_ext. intros nm. cbn. now destruct (String.eqb (lower s) nm). Qed.

Lemma sum_placed nms (gs : list gen) : Forall (wf nms) gs -> NoDup (flat_map ref_states gs) ->
  forall st0 o0, length st0 = length o0 -> NoDup (st0 ++ flat_map ref_states gs) ->
  sum_arrays (placed nms st0 o0) (map (fun x => placed nms (ref_states x) (shown x)) gs) = Ok (placed nms (st0 ++ flat_map ref_states gs) (o0 ++ flat_map shown gs)).
Proof.
  induction gs as [|x gs IH]; intros Hw Hn st0 o0 Hl Hd; cbn [map sum_arrays flat_map]; [now rewrite !app_nil_r|].
  inversion Hw as [|? ? W1 W2]; subst. cbn in Hn. destruct (wf_states _ _ W1) as (_ & _ & _ & L).
  assert (E : np_add (placed nms st0 o0) (placed nms (ref_states x) (shown x)) = Ok (placed nms (st0 ++ ref_states x) (o0 ++ shown x))).
  { unfold np_add, placed. rewrite !map_length, Nat.eqb_refl. f_equal. clear - Hl Hd L. cbn [flat_map] in Hd. induction nms as [|nm nms IHn]; cbn; [reflexivity|]. f_equal; [|exact IHn].
    rewrite lookup_app by exact Hl. destruct (lookup nm st0 o0) as [v|] eqn:E0; cbn [orz]; [|ring].
    assert (Hin : In nm st0). { destruct (in_dec String.string_dec nm st0) as [Hi|Hi]; [exact Hi|]. rewrite (lookup_none _ _ _ Hi) in E0. discriminate. }
    rewrite lookup_none; [cbn; ring|]. intros Hx. clear - Hd Hin Hx. induction st0 as [|a st0 IH]; [contradiction|]. cbn in Hd. inversion Hd as [|? ? A B]; subst. destruct Hin as [->|Hin]; [|auto].
    apply A. rewrite !in_app_iff. auto. }
  rewrite E. cbn [bind]. rewrite !app_assoc. cbn [flat_map] in Hd. rewrite app_assoc in Hd. rewrite <- (IH W2); [reflexivity| |rewrite !app_length; lia|exact Hd].
  clear - Hd. rewrite <- app_assoc in Hd. induction st0 as [|a st0 IH]; cbn in Hd; [|inversion Hd; auto]. induction (ref_states x) as [|b l IHl]; cbn in Hd; [exact Hd|inversion Hd; auto].
Qed.

Lemma get_reference_ok nms g : wf nms g -> exists g' r, get_reference g = Ok (g', r) /\ ref_result nms g g' r.
Proof.
  induction g as [s v m|n|s|w subs IH|m subs IH] using gen_tree_ind; intros H;
    [inversion H as [s0 v0 m0 F1 F2 | | | |]|inversion H as [|n0 F1| | |]|inversion H as [| |s0 F1 F2| |]|inversion H as [| | |w0 subs0 F1 F2 F3|]|inversion H as [| | | |m0 subs0 F1 F2 F3 F4 F5]]; subst; cbn [get_reference].
  - do 2 eexists. split; [reflexivity|]. repeat (split; [auto|]). cbn. apply put_masked_placed.
  - do 2 eexists. split; [reflexivity|]. repeat (split; [auto|]). unfold placed. clear. induction nms as [|a l IHl]; cbn in *; [reflexivity|]. now f_equal.
  - do 2 eexists. split; [reflexivity|]. repeat (split; [auto|]). cbn. unfold sub_get. rewrite F2. apply put_masked_placed.
  - destruct (nth_error subs (sw_cur w)) as [x|] eqn:E; [|apply nth_error_None in E; lia]. pose proof (nth_error_In _ _ E) as Hin.
    rewrite Forall_forall in IH, F1, F2. destruct (IH x Hin (F1 x Hin)) as (x' & r & Hr & R1 & R2 & R3 & R4 & R5 & R6 & R7).
    rewrite (at_nth_intro _ _ _ _ _ _ E Hr). cbn [bind fst snd]. do 2 eexists. split; [reflexivity|]. split; [|split; [|split; [|split; [|split; [|split]]]]].
    + constructor; [apply list_set_forall; [apply Forall_forall; exact F1|exact R1]| |cbn; rewrite list_set_length; exact F3]. apply list_set_forall; [apply Forall_forall; exact F2|]. rewrite R2, R3. apply F2. exact Hin.
    + reflexivity.
    + reflexivity.
    + cbn. now rewrite (map_list_set shown _ _ _ _ E R4).
    + cbn. now rewrite (map_list_set ref_states _ _ _ _ E R5).
    + intros Hb. inversion Hb as [| | |w0 subs0 B1 B2|]; subst. rewrite Forall_forall in B1, B2. constructor; [apply list_set_forall; [apply Forall_forall; exact B1|auto]|]. apply list_set_forall; [apply Forall_forall; exact B2|]. rewrite R3. apply B2. exact Hin.
    + cbn. rewrite (nth_error_nth_map ref_states _ _ [] _ E), (nth_error_nth_map shown _ _ [] _ E). exact R7.
  - assert (HF : exists ps, Forall2 (fun x p => get_reference x = Ok p) subs ps /\ Forall2 (fun x p => ref_result nms x (fst p) (snd p)) subs ps).
    { clear - IH F1. induction subs as [|x subs IHs]; [exists []; auto|]. inversion IH as [|? ? A B]; subst. inversion F1 as [|? ? C D]; subst. destruct (A C) as (x' & r & Hr & Hres). destruct (IHs B D) as (ps & H1 & H2).
      exists ((x', r) :: ps). split; constructor; auto. }
    destruct HF as (ps & HF & HR). rewrite (each_intro _ _ _ HF). cbn [bind fst snd]. destruct (wf_states _ _ H) as (_ & Hnd & _ & _). cbn in Hnd.
    assert (Es : map snd ps = map (fun x => placed nms (ref_states x) (shown x)) subs).
    { clear - HR. induction HR as [|x p l ps (_ & _ & _ & _ & _ & _ & R7) HR IH]; cbn; [reflexivity|]. now rewrite R7, IH. }
    assert (Ez : repeat 0 (mu_n m) = placed nms [] []) by (rewrite F2; unfold placed; clear; induction nms as [|a l IHl]; cbn in *; [reflexivity|]; now f_equal).
    rewrite Es, Ez, (sum_placed nms subs F1 Hnd [] [] eq_refl Hnd). cbn [bind app]. do 2 eexists. split; [reflexivity|].
    assert (Em : map g_mask (map fst ps) = map g_mask subs) by (clear - HR; induction HR as [|x p l ps (_ & R2 & _) HR IH]; cbn; [reflexivity|]; now rewrite R2, IH).
    assert (Ep : map g_space (map fst ps) = map g_space subs) by (clear - HR; induction HR as [|x p l ps (_ & _ & R3 & _) HR IH]; cbn; [reflexivity|]; now rewrite R3, IH).
    split; [|split; [|split; [|split; [|split; [|split]]]]]; try reflexivity.
    + constructor; [| exact F2| |rewrite Em; exact F4|rewrite Em; exact F5].
      * clear - HR. induction HR as [|x p l ps (R1 & _) HR IH]; cbn; constructor; auto.
      * destruct HF; [congruence|discriminate].
    + cbn. clear - HR. induction HR as [|x p l ps (_ & _ & _ & R4 & _) HR IH]; cbn; [reflexivity|]. now rewrite R4, IH.
    + cbn. clear - HR. induction HR as [|x p l ps (_ & _ & _ & _ & R5 & _) HR IH]; cbn; [reflexivity|]. now rewrite R5, IH.
    + intros Hb. inversion Hb as [| | | |m0 subs0 B1 B2]; subst. constructor.
      * clear - HR B1. induction HR as [|x p l ps (_ & _ & _ & _ & _ & R6 & _) HR IH]; cbn; [constructor|]. inversion B1; subst. constructor; auto.
      * rewrite B2. rewrite !flat_map_concat_map. rewrite <- !(map_map g_space fst), <- !(map_map g_space snd), Ep. reflexivity.
Qed.

(** ** Histories *)
Lemma step_keeps nms o (g g' : gen) v : wf nms g -> step o g = Ok (g', v) -> wf nms g' /\ g_mask g' = g_mask g /\ g_space g' = g_space g /\ (boxed g -> boxed g') /\ (shows o -> v = shown g' /\ (boxed g -> inside (g_space g) v)).
Proof.
  intros Hw H. destruct o as [i| |]; cbn [step shows] in *.
  - bindh H. destruct v0 as [g1 [rf o]]. apply Ok_inj in H. injection H as <- <-. destruct (reset_keeps nms _ _ _ _ _ E) as (K1 & K2 & K3 & K4). destruct (K3 Hw) as [K5 K6]. cbn.
    split; [exact K5|]. split; [exact K1|]. split; [exact K2|]. split; [intros Hb; now apply K4|]. intros _. split; [exact K6|]. intros Hb. now apply K4.
  - destruct (get_reference_ok _ _ Hw) as (g1 & r & E & R1 & R2 & R3 & R4 & R5 & R6 & R7). rewrite E in H. apply Ok_inj in H. injection H as <- <-. split; [exact R1|]. split; [exact R2|]. split; [exact R3|]. split; [exact R6|]. intros [].
  - destruct (obs_keeps nms _ _ _ H) as (K1 & K2 & K3 & K4). destruct (K3 Hw) as [K5 K6].
    split; [exact K5|]. split; [exact K1|]. split; [exact K2|]. split; [intros Hb; now apply K4|]. intros _. split; [exact K6|]. intros Hb. now apply K4.
Qed.
Lemma run_keeps nms ops : forall g g' : gen, wf nms g -> run ops g = Ok g' -> wf nms g' /\ g_mask g' = g_mask g /\ g_space g' = g_space g /\ (boxed g -> boxed g').
Proof.
  induction ops as [|o ops IH]; intros g g' Hw H; cbn [run] in H; [apply Ok_inj in H; subst; auto|].
  bindh H. destruct v as [g1 v]. cbn [fst] in H. destruct (step_keeps _ _ _ _ _ Hw E) as (A1 & A2 & A3 & A4 & _). destruct (IH _ _ A1 H) as (B1 & B2 & B3 & B4).
  split; [exact B1|]. split; [congruence|]. split; [congruence|]. auto.
Qed.

(** ** Announcement *)
Lemma each_modules ps (subs subs' : list gen) u : each (fun x => do y <- set_modules ps x; Ok (y, tt)) subs = Ok (subs', u) -> Forall2 (fun x y => set_modules ps x = Ok y) subs subs'.
Proof.
  intros H. destruct (each_inv _ _ _ _ H) as (l & -> & _ & HF). clear H. induction HF as [|x [y []] l1 l2 H HF IH]; cbn; constructor; [|exact IH]. bindh H. congruence.
Qed.
Lemma columnwise_length f l y : columnwise f l = Ok y -> Forall (fun x => length x = length y) l.
Proof.
  revert y. induction l as [|x l IH]; intros y H; [discriminate|]. cbn [columnwise] in H. destruct l as [|x2 l]; [apply Ok_inj in H; subst; auto|].
  bindh H. destruct (Nat.eqb_spec (length x) (length v)) as [El|]; [|discriminate]. apply Ok_inj in H. subst y. specialize (IH _ eq_refl).
  assert (L : length (map2 f x v) = length x) by (rewrite map2_length; lia). rewrite L. constructor; [reflexivity|]. rewrite El. exact IH.
Qed.
Lemma columnwise_bound (f : R -> R -> R) (rel : R -> R -> Prop) l y : (forall a b, rel (f a b) a /\ rel (f a b) b) -> (forall a, rel a a) -> (forall a b c, rel a b -> rel b c -> rel a c) ->
  columnwise f l = Ok y -> forall x i a b, In x l -> nth_error x i = Some a -> nth_error y i = Some b -> rel b a.
Proof.
  intros Hf Hr Ht. revert y. induction l as [|x0 l IH]; intros y H x i a b Hin Ha Hb; [discriminate|]. cbn [columnwise] in H. destruct l as [|x2 l].
  - apply Ok_inj in H. subst y. destruct Hin as [->|[]]. assert (a = b) by congruence. subst. apply Hr.
  - bindh H. destruct (Nat.eqb_spec (length x0) (length v)) as [El|]; [|discriminate]. apply Ok_inj in H. subst y. rewrite map2_nth_error in Hb.
    destruct (nth_error x0 i) as [c|] eqn:Ec; [|discriminate]. destruct (nth_error v i) as [d|] eqn:Ed; [|discriminate]. injection Hb as <-. destruct Hin as [->|Hin].
    + assert (c = a) by congruence. subst. apply Hf.
    + eapply Ht; [apply (Hf c d)|]. eapply IH; eauto.
Qed.

Lemma built_switched_inv w (subs : list gen) : built (GSwitched w subs) -> Forall built subs /\ subs <> [] /\ sw_cur w = 0%nat /\ sw_ref w = None.
Proof.
  intros H. remember (GSwitched w subs) as g eqn:Eg. destruct H as [s v|n|state lens m k seq s Hk Hs|subs0 p range seq g Hall Hs|subs0 Hall]; try discriminate.
  subst g. unfold switched_new in Hs. destruct subs0 as [|g0 l]; [discriminate|]. bindh Hs. destruct (np_spawn N seq) as [gn seq']. apply Ok_inj in Hs. injection Hs as <- <-. split; [exact Hall|]. split; [discriminate|]. auto.
Qed.
Lemma built_multiple_inv m (subs : list gen) : built (GMultiple m subs) -> Forall built subs.
Proof.
  intros H. remember (GMultiple m subs) as g eqn:Eg. destruct H as [s v|n|state lens m0 k seq s Hk Hs|subs0 p range seq g Hall Hs|subs0 Hall]; try discriminate.
  - subst g. unfold switched_new in Hs. destruct subs0 as [|g0 l]; [discriminate|]. bindh Hs. destruct (np_spawn N seq) as [gn seq']. apply Ok_inj in Hs. discriminate.
  - injection Eg as _ <-. exact Hall.
Qed.
Lemma built_sub_inv (s : sub N) : built (GSub s) -> s_ref s = None /\ s_k s = 0%nat /\ lower (s_state s) = s_state s /\ kind_new (s_kind s).
Proof.
  intros H. remember (GSub s) as g eqn:Eg. destruct H as [s0 v|n|state lens m0 k seq s0 Hk Hs|subs0 p range seq g Hall Hs|subs0 Hall]; try discriminate.
  - injection Eg as ->. unfold sub_new in Hs. destruct (np_spawn N seq) as [gn seq']. bindh Hs. apply Ok_inj in Hs. subst s. cbn. rewrite lower_idem. auto.
  - subst g. unfold switched_new in Hs. destruct subs0 as [|g0 l]; [discriminate|]. bindh Hs. destruct (np_spawn N seq) as [gn seq']. apply Ok_inj in Hs. discriminate.
Qed.

Lemma set_modules_wf ps (g0 : gen) : NoDup (p_names ps) -> forall g1, built g0 -> set_modules ps g0 = Ok g1 -> wf (p_names ps) g1.
Proof.
  intros Hn. induction g0 as [s v m|n|s|w subs IH|m subs IH] using gen_tree_ind; intros g1 Hb H; cbn [set_modules] in H.
  - bindh H. apply Ok_inj in H. subst g1. destruct (state_mask_spec _ _ _ Hn E) as [H1 H2]. now constructor.
  - apply Ok_inj in H. subst g1. now constructor.
  - bindh H. apply Ok_inj in H. subst g1. unfold sub_modules in E. bindh E. destruct (state_mask_spec _ _ _ Hn E0) as [H1 H2]. bindh E. apply Ok_inj in E. subst v. now constructor.
  - destruct (built_switched_inv _ _ Hb) as (B1 & B2 & B3 & _). bindh H. destruct v as [subs' u]. cbn [fst] in H. apply each_modules in E. bindh H. bindh H. destruct subs' as [|x0 l] eqn:Es; [discriminate|]. rewrite <- Es in *. bindh H. apply Ok_inj in H. subst g1.
    assert (Hwf : Forall (wf (p_names ps)) subs') by (clear - E IH B1; induction E as [|x y l1 l2 Hxy HF IHf]; [constructor|]; inversion IH; subst; inversion B1; subst; constructor; auto).
    apply wf_switched; [exact Hwf| |cbn; rewrite B3, Es; cbn; lia]. apply Forall_forall. intros x Hx. cbn. split.
    + unfold py_assert in E2. match type of E2 with (if ?b then _ else _) = _ => destruct b eqn:Eb; [|discriminate] end. rewrite forallb_forall in Eb. specialize (Eb x Hx). unfold bools_eqb in Eb. destruct (list_eq_dec _ _ _); [assumption|discriminate].
    + apply columnwise_length in E0. rewrite Forall_forall in E0. apply (E0 (fst (g_space x))). now apply (in_map (fun x => fst (g_space x))).
  - pose proof (built_multiple_inv _ _ Hb) as B1. bindh H. destruct v as [subs' u]. cbn [fst] in H. apply each_modules in E. destruct subs' as [|x0 l] eqn:Es; [discriminate|]. rewrite <- Es in *. bindh H. apply Ok_inj in H. subst g1.
    assert (Hwf : Forall (wf (p_names ps)) subs') by (clear - E IH B1; induction E as [|x y l1 l2 Hxy HF IHf]; [constructor|]; inversion IH; subst; inversion B1; subst; constructor; auto).
    apply wf_multiple; [exact Hwf|reflexivity|rewrite Es; discriminate|reflexivity|].
    unfold py_assert in E0. match type of E0 with (if ?b then _ else _) = _ => destruct b eqn:Eb; [|discriminate] end. rewrite forallb_forall in Eb. apply Forall_forall. intros c Hc. specialize (Eb c Hc). now apply Nat.ltb_lt in Eb.
Qed.

Lemma mo_switched_inv w (subs : list gen) : margins_ordered (GSwitched w subs) -> Forall margins_ordered subs.
Proof. intros H. inversion H; subst; assumption. Qed.
Lemma mo_multiple_inv m (subs : list gen) : margins_ordered (GMultiple m subs) -> Forall margins_ordered subs.
Proof. intros H. inversion H; subst; assumption. Qed.
Lemma set_modules_boxed ps (g0 : gen) : forall g1, built g0 -> set_modules ps g0 = Ok g1 -> margins_ordered g1 -> boxed g1.
Proof.
  induction g0 as [s v m|n|s|w subs IH|m subs IH] using gen_tree_ind; intros g1 Hb H Hm; cbn [set_modules] in H.
  - bindh H. apply Ok_inj in H. subst g1. constructor.
  - apply Ok_inj in H. subst g1. constructor.
  - destruct (built_sub_inv _ Hb) as (B1 & _). bindh H. apply Ok_inj in H. subst g1. unfold sub_modules in E. bindh E. bindh E. apply Ok_inj in E. subst v. inversion Hm as [| |s0 M1| |]; subst. cbn in M1.
    constructor. exists (fst v1), (snd v1). cbn. split; [reflexivity|]. split; [now destruct v1|]. split; [exact M1|]. rewrite B1. discriminate.
  - destruct (built_switched_inv _ _ Hb) as (B1 & B2 & B3 & _). bindh H. destruct v as [subs' u]. cbn [fst] in H. apply each_modules in E. bindh H. bindh H. destruct subs' as [|x0 l] eqn:Es; [discriminate|]. rewrite <- Es in *. bindh H. apply Ok_inj in H. subst g1.
    pose proof (mo_switched_inv _ _ Hm) as M1. constructor.
    + clear - E IH B1 M1. induction E as [|x y l1 l2 Hxy HF IHf]; [constructor|]. inversion IH; subst; inversion B1; subst; inversion M1; subst. constructor; auto.
    + apply Forall_forall. intros x Hx o (I1 & I2 & I3). cbn [sw_space].
      pose proof (columnwise_length _ _ _ E0) as L1. pose proof (columnwise_length _ _ _ E1) as L2. rewrite Forall_forall in L1, L2.
      specialize (L1 (fst (g_space x)) (in_map (fun x => fst (g_space x)) _ _ Hx)). specialize (L2 (snd (g_space x)) (in_map (fun x => snd (g_space x)) _ _ Hx)).
      split; [cbn; congruence|]. split; [cbn; congruence|]. cbn [fst snd]. intros i lo hi vv H1 H2 H3.
      destruct (nth_error (fst (g_space x)) i) as [a|] eqn:Ea; [|exfalso; apply nth_error_None in Ea; assert (i < length o)%nat by (apply nth_error_Some; congruence); lia].
      destruct (nth_error (snd (g_space x)) i) as [b|] eqn:Ebb; [|exfalso; apply nth_error_None in Ebb; assert (i < length o)%nat by (apply nth_error_Some; congruence); lia].
      specialize (I3 _ _ _ _ Ea Ebb H3).
      assert (Ha : lo <= a).
      { refine (columnwise_bound Rmin Rle _ _ _ _ _ E0 (fst (g_space x)) i a lo (in_map (fun x => fst (g_space x)) _ _ Hx) Ea H1); [intros; split; [apply Rmin_l|apply Rmin_r]|intros; lra|intros; lra]. }
      assert (Hh : b <= hi).
      { apply Rge_le. refine (columnwise_bound Rmax Rge _ _ _ _ _ E1 (snd (g_space x)) i b hi (in_map (fun x => snd (g_space x)) _ _ Hx) Ebb H2); [intros; split; apply Rle_ge; [apply Rmax_l|apply Rmax_r]|intros; lra|intros; lra]. }
      lra.
  - pose proof (built_multiple_inv _ _ Hb) as B1. bindh H. destruct v as [subs' u]. cbn [fst] in H. apply each_modules in E. destruct subs' as [|x0 l] eqn:Es; [discriminate|]. rewrite <- Es in *. bindh H. apply Ok_inj in H. subst g1.
    pose proof (mo_multiple_inv _ _ Hm) as M1. constructor; [|reflexivity].
    clear - E IH B1 M1. induction E as [|x y l1 l2 Hxy HF IHf]; [constructor|]. inversion IH; subst; inversion B1; subst; inversion M1; subst. constructor; auto.
Qed.
End TreeFacts.
