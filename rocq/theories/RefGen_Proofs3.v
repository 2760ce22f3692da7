(** Further proofs about reference generators: what never changes, names, switching,
    combination. *)
From Verif Require Import PyBaseFacts PyDictFacts Utils_Model Solver_Model Solver_Proofs RefGen_Model RefGen_Spec RefGen_Proofs RefGen_Proofs2.

Section Static.
Context {N : numpy}.
Notation gen := (gen N).

(** ** What operations never change *)
Definition same_sw (w w' : switched N) : Prop :=
  sw_names w' = sw_names w /\ sw_p w' = sw_p w /\ sw_range w' = sw_range w /\ sw_mask w' = sw_mask w /\ sw_space w' = sw_space w.
Inductive same_tree : gen -> gen -> Prop :=
| st_const s v m : same_tree (GConst s v m) (GConst s v m)
| st_zero n : same_tree (GZero n) (GZero n)
| st_sub s s' : same_config s s' -> same_tree (GSub s) (GSub s')
| st_switched w w' subs subs' : same_sw w w' -> Forall2 same_tree subs subs' -> same_tree (GSwitched w subs) (GSwitched w' subs')
| st_multiple m subs subs' : Forall2 same_tree subs subs' -> same_tree (GMultiple m subs) (GMultiple m subs').
Lemma same_sw_with (w : switched N) a b c d e f : same_sw w (sw_with w a b c d e f).
Proof. repeat split. Qed.
Lemma same_sw_trans a b c : same_sw a b -> same_sw b c -> same_sw a c.
Proof. unfold same_sw. intuition congruence. Qed.
Lemma same_tree_refl g : same_tree g g.
Proof.
  induction g as [s v m|n|s|w subs IH|m subs IH] using gen_tree_ind; constructor; try (repeat split).
  - induction IH; constructor; auto.
  - induction IH; constructor; auto.
Qed.
Lemma same_list_refl l : Forall2 same_tree l l.
Proof. induction l; constructor; [apply same_tree_refl|assumption]. Qed.
Lemma same_tree_trans a : forall b c, same_tree a b -> same_tree b c -> same_tree a c.
Proof.
  assert (HL : forall l, Forall (fun x => forall b c, same_tree x b -> same_tree b c -> same_tree x c) l -> forall l1 l2, Forall2 same_tree l l1 -> Forall2 same_tree l1 l2 -> Forall2 same_tree l l2).
  { induction 1 as [|x l Hx Hl IHl]; intros l1 l2 H1 H2; inversion H1; subst; inversion H2; subst; constructor; eauto. }
  induction a as [s v m|n|s|w subs IH|m subs IH] using gen_tree_ind; intros b c H1 H2.
  - inversion H1; subst. exact H2.
  - inversion H1; subst. exact H2.
  - inversion H1 as [| |s1 s2 A| |]; subst. inversion H2 as [| |s3 s4 B| |]; subst. constructor. exact (same_config_trans _ _ _ A B).
  - inversion H1 as [| | |w1 w2 l1 l2 A A'|]; subst. inversion H2 as [| | |w3 w4 l3 l4 B B'|]; subst. constructor; [exact (same_sw_trans _ _ _ A B)|exact (HL _ IH _ _ A' B')].
  - inversion H1 as [| | | |m1 l1 l2 A]; subst. inversion H2 as [| | | |m2 l3 l4 B]; subst. constructor. exact (HL _ IH _ _ A B).
Qed.
Lemma same_list_set i x' : forall subs x, nth_error subs i = Some x -> same_tree x x' -> Forall2 same_tree subs (list_set i x' subs).
Proof.
  induction i as [|i IH]; intros [|y subs] x H Hx; try discriminate; cbn in *.
  - injection H as ->. constructor; [exact Hx|apply same_list_refl].
  - constructor; [apply same_tree_refl|exact (IH _ _ H Hx)].
Qed.
Lemma sw_draw_same (w w' : switched N) n : sw_draw w n = Ok w' -> same_sw w w'.
Proof. intros E. unfold sw_draw in E. bindh E. bindh E. apply Ok_inj in E. subst w'. apply same_sw_with. Qed.

Lemma reset_same g : forall init g' v, reset init g = Ok (g', v) -> same_tree g g'.
Proof.
  induction g as [s v m|n|s|w subs IH|m subs IH] using gen_tree_ind; intros init g' r H; cbn [reset] in H.
  - apply Ok_inj in H. injection H as <- _. constructor.
  - apply Ok_inj in H. injection H as <- _. constructor.
  - bindh H. destruct v as [s' [rf o]]. apply Ok_inj in H. injection H as <- _. constructor. now apply sub_reset_static in E.
  - destruct (np_spawn N (sw_seq w)) as [gn seq]. bindh H. bindh H. destruct v0 as [subs' o]. apply Ok_inj in H. injection H as <- _.
    destruct (at_nth_inv _ _ _ _ _ E0) as (x & x' & Hx & Hr & ->). rewrite Forall_forall in IH. constructor; [exact (sw_draw_same _ _ _ E)|]. apply (same_list_set _ _ _ x Hx). exact (IH x (nth_error_In _ _ Hx) _ _ _ Hr).
  - bindh H. destruct v as [subs' rs]. bindh H. apply Ok_inj in H. injection H as <- _. cbn [fst snd] in *. destruct (each_inv _ _ _ _ E) as (ps & -> & -> & HF). constructor.
    clear - HF IH. induction HF as [|x [x' o] l ps Hx HF IHf]; cbn; [constructor|]. inversion IH as [|? ? A B]; subst. constructor; [exact (A _ _ _ Hx)|auto].
Qed.
Lemma get_reference_same g : forall g' v, get_reference g = Ok (g', v) -> same_tree g g'.
Proof.
  induction g as [s v m|n|s|w subs IH|m subs IH] using gen_tree_ind; intros g' r H; cbn [get_reference] in H.
  - apply Ok_inj in H. injection H as <- _. constructor.
  - apply Ok_inj in H. injection H as <- _. constructor.
  - apply Ok_inj in H. injection H as <- _. apply same_tree_refl.
  - bindh H. destruct v as [subs' o]. apply Ok_inj in H. injection H as <- _. destruct (at_nth_inv _ _ _ _ _ E) as (x & x' & Hx & Hr & ->). rewrite Forall_forall in IH. constructor; [apply same_sw_with|]. apply (same_list_set _ _ _ x Hx). exact (IH x (nth_error_In _ _ Hx) _ _ Hr).
  - bindh H. destruct v as [subs' rs]. bindh H. apply Ok_inj in H. injection H as <- _. cbn [fst snd] in *. destruct (each_inv _ _ _ _ E) as (ps & -> & -> & HF). constructor.
    clear - HF IH. induction HF as [|x [x' o] l ps Hx HF IHf]; cbn; [constructor|]. inversion IH as [|? ? A B]; subst. constructor; [exact (A _ _ Hx)|auto].
Qed.
Lemma get_obs_same g : forall g' v, get_obs g = Ok (g', v) -> same_tree g g'.
Proof.
  induction g as [s v m|n|s|w subs IH|m subs IH] using gen_tree_ind; intros g' r H; cbn [get_obs] in H.
  - apply Ok_inj in H. injection H as <- _. constructor.
  - apply Ok_inj in H. injection H as <- _. constructor.
  - bindh H. destruct v as [s' o]. apply Ok_inj in H. injection H as <- _. constructor. now apply sub_obs_static in E.
  - destruct (sw_len w <=? Z.of_nat (sw_k w))%Z.
    + bindh H. bindh H. destruct v0 as [subs' o]. apply Ok_inj in H. injection H as <- _. destruct (at_nth_inv _ _ _ _ _ E0) as (x & x' & Hx & Hr & ->). constructor; [exact (sw_draw_same _ _ _ E)|]. apply (same_list_set _ _ _ x Hx). exact (reset_same _ _ _ _ Hr).
    + bindh H. destruct v as [subs' o]. apply Ok_inj in H. injection H as <- _. destruct (at_nth_inv _ _ _ _ _ E) as (x & x' & Hx & Hr & ->). rewrite Forall_forall in IH. constructor; [apply same_sw_with|]. apply (same_list_set _ _ _ x Hx). exact (IH x (nth_error_In _ _ Hx) _ _ Hr).
  - bindh H. destruct v as [subs' rs]. apply Ok_inj in H. injection H as <- _. cbn [fst snd] in *. destruct (each_inv _ _ _ _ E) as (ps & -> & -> & HF). constructor.
    clear - HF IH. induction HF as [|x [x' o] l ps Hx HF IHf]; cbn; [constructor|]. inversion IH as [|? ? A B]; subst. constructor; [exact (A _ _ Hx)|auto].
Qed.
Lemma step_same o (g g' : gen) v : step o g = Ok (g', v) -> same_tree g g'.
Proof.
  destruct o as [i| |]; cbn [step]; intros H; [|exact (get_reference_same _ _ _ H)|exact (get_obs_same _ _ _ H)].
  bindh H. destruct v0 as [g1 r]. apply Ok_inj in H. injection H as <- _. exact (reset_same _ _ _ _ E).
Qed.
Lemma run_same ops : forall g g' : gen, run ops g = Ok g' -> same_tree g g'.
Proof.
  induction ops as [|o ops IH]; intros g g' H; cbn [run] in H; [apply Ok_inj in H; subst; apply same_tree_refl|].
  bindh H. destruct v as [g1 v]. exact (same_tree_trans _ _ _ (step_same _ _ _ _ E) (IH _ _ H)).
Qed.

(** ** Names *)
Inductive named : gen -> Prop :=
| nm_zero n : named (GZero n)
| nm_sub s : lower (s_state s) = s_state s -> named (GSub s)
| nm_switched w subs : Forall named subs -> Forall (fun x => g_names x = sw_names w) subs -> named (GSwitched w subs)
| nm_multiple m subs : Forall named subs -> NList (mu_names m) = NList (flat_map (fun x => match g_names x with NList l => l | NStr _ => [] end) subs) -> named (GMultiple m subs).
Lemma same_names g g' : same_tree g g' -> g_names g' = g_names g.
Proof. intros H. destruct H as [| |s s' (E & _)|w w' subs subs' (E & _) _|]; cbn; try reflexivity; [now rewrite E|exact E]. Qed.
Lemma named_same g : forall g', same_tree g g' -> named g -> named g'.
Proof.
  induction g as [s v m|n|s|w subs IH|m subs IH] using gen_tree_ind; intros g' H Hn.
  - inversion Hn.
  - inversion H; subst. constructor.
  - inversion H as [| |s1 s2 A| |]; subst. inversion Hn as [|s0 B| |]; subst. constructor. destruct A as (-> & _). exact B.
  - inversion H as [| | |w1 w2 l1 l2 A A'|]; subst. inversion Hn as [| |w0 l0 B1 B2|]; subst. destruct A as (A & _). constructor; rewrite ?A; clear - A' B1 B2 IH; induction A' as [|x x' l l' Hx HF IHf]; constructor; inversion B1; subst; inversion B2; subst; inversion IH; subst; auto.
    rewrite (same_names _ _ Hx). assumption.
  - inversion H as [| | | |m1 l1 l2 A]; subst. inversion Hn as [| | |m0 l0 B1 B2]; subst. constructor.
    + clear - A B1 IH. induction A as [|x x' l l' Hx HF IHf]; constructor; inversion B1; subst; inversion IH; subst; auto.
    + rewrite B2. clear - A. f_equal. induction A as [|x x' l l' Hx HF IHf]; cbn; [reflexivity|]. now rewrite (same_names _ _ Hx), IHf.
Qed.
Lemma named_states nms g : wf nms g -> named g -> g_names g = NList (ref_states g).
Proof.
  induction g as [s v m|n|s|w subs IH|m subs IH] using gen_tree_ind; intros Hw Hn.
  - inversion Hn.
  - reflexivity.
  - inversion Hn as [|s0 B| |]; subst. cbn. now rewrite B.
  - inversion Hn as [| |w0 l0 B1 B2|]; subst. inversion Hw as [| | |w0 subs0 F1 F2 F3|]; subst. destruct (nth_error subs (sw_cur w)) as [x|] eqn:Ex; [|apply nth_error_None in Ex; lia]. pose proof (nth_error_In _ _ Ex) as Hin.
    rewrite Forall_forall in *. cbn. rewrite (nth_error_nth_map ref_states _ _ [] _ Ex), <- (B2 x Hin). apply IH; auto.
  - inversion Hn as [| | |m0 l0 B1 B2]; subst. inversion Hw as [| | | |m0 subs0 F1 F2 F3 F4 F5]; subst. cbn. rewrite B2. f_equal. clear - IH B1 F1. induction subs as [|x l IHl]; cbn; [reflexivity|].
    inversion IH; subst; inversion B1; subst; inversion F1; subst. rewrite IHl by assumption. f_equal. now rewrite H1 by assumption.
Qed.

Lemma set_modules_names ps (g g' : gen) : set_modules ps g = Ok g' -> g_names g' = g_names g.
Proof.
  destruct g as [s v m|n|s|w subs|m subs]; intros H; cbn [set_modules] in H.
  - bindh H. apply Ok_inj in H. subst. reflexivity.
  - apply Ok_inj in H. subst. reflexivity.
  - bindh H. apply Ok_inj in H. subst. unfold sub_modules in E. bindh E. bindh E. apply Ok_inj in E. subst. reflexivity.
  - bindh H. destruct v as [subs' u]. cbn [fst] in H. bindh H. bindh H. destruct subs' as [|x0 l]; [discriminate|]. bindh H. apply Ok_inj in H. subst. reflexivity.
  - bindh H. destruct v as [subs' u]. cbn [fst] in H. destruct subs' as [|x0 l]; [discriminate|]. bindh H. apply Ok_inj in H. subst. reflexivity.
Qed.
Lemma names_eqb_eq a b : names_eqb a b = true -> a = b.
Proof.
  destruct a as [s|l], b as [t|m]; cbn; intros H; try discriminate; [apply String.eqb_eq in H; now subst|]. destruct (list_eq_dec String.string_dec l m); [now subst|discriminate].
Qed.
Lemma built_switched_names w (subs : list gen) : built (GSwitched w subs) -> Forall (fun x => g_names x = sw_names w) subs.
Proof.
  intros H. remember (GSwitched w subs) as g eqn:Eg. destruct H as [s v|n|state lens m k seq s Hk Hs|subs0 p range seq g Hall Hs|subs0 Hall]; try discriminate.
  subst g. unfold switched_new in Hs. destruct subs0 as [|g0 l]; [discriminate|]. bindh Hs. destruct (np_spawn N seq) as [gn seq']. apply Ok_inj in Hs. injection Hs as <- <-. cbn [sw_names].
  unfold py_assert in E. match type of E with (if ?b then _ else _) = _ => destruct b eqn:Eb; [|discriminate] end. rewrite forallb_forall in Eb. apply Forall_forall. intros x Hx. apply names_eqb_eq. exact (Eb x Hx).
Qed.
Definition listed (x : gen) : list string := match g_names x with NList l => l | NStr _ => [] end.
Lemma fold_names (subs : list gen) : Forall (fun x => exists l, g_names x = NList l) subs -> forall acc, fold_left (fun l g => names_extend l (g_names g)) subs acc = acc ++ flat_map listed subs.
Proof.
  induction 1 as [|x l (nl & Hx) Hl IH]; intros acc; cbn; [now rewrite app_nil_r|]. rewrite IH. unfold listed at 2. rewrite Hx. cbn. now rewrite app_assoc.
Qed.
Lemma built_multiple_names m (subs : list gen) : built (GMultiple m subs) -> Forall (fun x => exists l, g_names x = NList l) subs -> mu_names m = flat_map listed subs.
Proof.
  intros H Hl. remember (GMultiple m subs) as g eqn:Eg. destruct H as [s v|n|state lens m0 k seq s Hk Hs|subs0 p range seq g Hall Hs|subs0 Hall]; try discriminate.
  - subst g. unfold switched_new in Hs. destruct subs0 as [|g0 l]; [discriminate|]. bindh Hs. destruct (np_spawn N seq) as [gn seq']. apply Ok_inj in Hs. discriminate.
  - injection Eg as <- <-. cbn. now rewrite (fold_names _ Hl []).
Qed.
Lemma nc_switched_inv w (subs : list gen) : no_const (GSwitched w subs) -> Forall no_const subs.
Proof. intros H. inversion H; subst; auto. Qed.
Lemma nc_multiple_inv m (subs : list gen) : no_const (GMultiple m subs) -> Forall no_const subs.
Proof. intros H. inversion H; subst; auto. Qed.
Lemma no_const_listed (g : gen) : built g -> no_const g -> exists l, g_names g = NList l.
Proof.
  induction g as [s v m|n|s|w subs IH|m subs IH] using gen_tree_ind; intros Hb Hn; [inversion Hn|eexists; reflexivity|eexists; reflexivity| |eexists; reflexivity].
  destruct (built_switched_inv _ _ Hb) as (B1 & B2 & _). pose proof (built_switched_names _ _ Hb) as B3. pose proof (nc_switched_inv _ _ Hn) as C1.
  destruct subs as [|x l]; [congruence|]. inversion IH as [|? ? I1 I2]; subst; inversion B1 as [|? ? J1 J2]; subst; inversion B3 as [|? ? K1 K2]; subst; inversion C1 as [|? ? L1 L2]; subst. cbn. rewrite <- K1. auto.
Qed.
Lemma set_modules_named ps (g0 : gen) : forall g1, built g0 -> no_const g0 -> set_modules ps g0 = Ok g1 -> named g1.
Proof.
  induction g0 as [s v m|n|s|w subs IH|m subs IH] using gen_tree_ind; intros g1 Hb Hc H; cbn [set_modules] in H.
  - inversion Hc.
  - apply Ok_inj in H. subst g1. constructor.
  - destruct (built_sub_inv _ Hb) as (_ & _ & B3 & _). bindh H. apply Ok_inj in H. subst g1. unfold sub_modules in E. bindh E. bindh E. apply Ok_inj in E. subst v. constructor. exact B3.
  - destruct (built_switched_inv _ _ Hb) as (B1 & _). pose proof (built_switched_names _ _ Hb) as B3. pose proof (nc_switched_inv _ _ Hc) as C1.
    bindh H. destruct v as [subs' u]. cbn [fst] in H. apply each_modules in E. bindh H. bindh H. destruct subs' as [|x0 l] eqn:Es; [discriminate|]. rewrite <- Es in *. bindh H. apply Ok_inj in H. subst g1.
    constructor; clear - E IH B1 B3 C1; induction E as [|x y l1 l2 Hxy HF IHf]; constructor; inversion IH; subst; inversion B1; subst; inversion B3; subst; inversion C1; subst; auto.
    cbn. rewrite (set_modules_names _ _ _ Hxy). assumption.
  - pose proof (built_multiple_inv _ _ Hb) as B1. pose proof (nc_multiple_inv _ _ Hc) as C1.
    assert (Hl : Forall (fun x => exists l, g_names x = NList l) subs) by (apply Forall_forall; intros x Hx; rewrite Forall_forall in B1, C1; apply no_const_listed; auto).
    pose proof (built_multiple_names _ _ Hb Hl) as B3.
    bindh H. destruct v as [subs' u]. cbn [fst] in H. apply each_modules in E. destruct subs' as [|x0 l] eqn:Es; [discriminate|]. rewrite <- Es in *. bindh H. apply Ok_inj in H. subst g1. constructor.
    + clear - E IH B1 C1. induction E as [|x y l1 l2 Hxy HF IHf]; constructor; inversion IH; subst; inversion B1; subst; inversion C1; subst; auto.
    + cbn [mu_names]. rewrite B3. f_equal. clear - E. induction E as [|x y l1 l2 Hxy HF IHf]; cbn; [reflexivity|]. rewrite IHf. f_equal. unfold listed. now rewrite (set_modules_names _ _ _ Hxy).
Qed.

(** ** Combination *)
Lemma count_overlap nms (subs : list gen) : Forall (wf nms) subs -> map g_mask subs = map (mem nms) (map ref_states subs).
Proof. intros H. rewrite map_map. apply map_ext_in. intros x Hx. rewrite Forall_forall in H. now apply wf_states, H. Qed.
Lemma nodup_count (f : gen -> list string) (l : list gen) nm : NoDup (flat_map f l) -> (length (filter (str_in nm) (map f l)) < 2)%nat.
Proof.
  induction l as [|x l IH]; cbn; intros H; [lia|]. assert (H2 : NoDup (flat_map f l)) by (clear IH; induction (f x) as [|a t IHt]; cbn in *; [exact H|inversion H; auto]). specialize (IH H2).
  destruct (str_in nm (f x)) eqn:E; [|exact IH]. cbn. apply str_in_true in E.
  assert (Hno : ~ In nm (flat_map f l)). { clear - H E. induction (f x) as [|a t IHt]; [contradiction|]. cbn in H. inversion H as [|? ? A B]; subst. destruct E as [->|E]; [|auto]. intros Hi. apply A. rewrite in_app_iff. auto. }
  destruct (filter (str_in nm) (map f l)) as [|st r] eqn:Ef; [cbn; lia|]. exfalso. assert (Hi : In st (filter (str_in nm) (map f l))) by (rewrite Ef; now left).
  apply filter_In in Hi. destruct Hi as [Hi1 Hi2]. apply in_map_iff in Hi1. destruct Hi1 as (y & <- & Hy). apply str_in_true in Hi2. apply Hno. apply in_flat_map. eauto.
Qed.
Lemma count_two nms (f : gen -> list string) (l : list gen) : (forall x, In x l -> NoDup (f x)) -> incl (flat_map f l) nms -> forallb (fun c => Nat.ltb c 2) (map (fun nm => length (filter (str_in nm) (map f l))) nms) = true <-> NoDup (flat_map f l).
Proof.
  intros Hn Hi. split.
  - intros H. rewrite forallb_forall in H. apply nodup_flat; [exact Hn|]. intros nm. destruct (str_in nm nms) eqn:E.
    + apply str_in_true in E. apply Nat.ltb_lt. apply H. now apply (in_map (fun nm => length (filter (str_in nm) (map f l)))).
    + apply str_in_false in E. destruct (filter (str_in nm) (map f l)) as [|st r] eqn:Ef; [cbn; lia|]. exfalso. assert (Hj : In st (filter (str_in nm) (map f l))) by (rewrite Ef; now left).
      apply filter_In in Hj. destruct Hj as [Hi1 Hi2]. apply in_map_iff in Hi1. destruct Hi1 as (y & <- & Hy). apply str_in_true in Hi2. apply E. apply Hi. apply in_flat_map. eauto.
  - intros H. apply forallb_forall. intros c Hc. apply in_map_iff in Hc. destruct Hc as (nm & <- & _). apply Nat.ltb_lt. now apply nodup_count.
Qed.
Lemma each_modules_intro ps (subs subs' : list gen) : Forall2 (fun x y => set_modules ps x = Ok y) subs subs' -> exists u, each (fun x => do y <- set_modules ps x; Ok (y, tt)) subs = Ok (subs', u).
Proof.
  induction 1 as [|x y l l' Hx HF (u & IH)]; [eexists; reflexivity|]. rewrite each_cons, Hx. cbn [bind]. rewrite IH. cbn [bind fst snd]. eauto.
Qed.
End Static.
