(** Proofs about the example controllers: two- and three-point controllers and valid actions. *)
From Verif Require Import PyBase PyBaseFacts PyDict PyDictFacts Transform_Model PhysSys_Model Ex_Model Ex_Model2 Ex_Spec.
Local Open Scope string_scope.
Local Open Scope list_scope.
Local Open Scope R_scope.

Ltac rcase := repeat match goal with |- context [rlt ?x ?y] => destruct (rltP x y) | |- context [rle ?x ?y] => destruct (rleP x y) end.

(** *** on-off *)
Lemma oo_run_par c h : oo_h (oo_run c h) = oo_h c /\ oo_on (oo_run c h) = oo_on c /\ oo_off (oo_run c h) = oo_off c.
Proof. revert c. induction h as [|[s r|] h IH]; intros c; [auto|cbn [oo_run]; exact (IH (fst (oo_control c s r)))|cbn [oo_run]; exact (IH (oo_reset c))]. Qed.
Lemma oo_memoryless c s r : r - s <> oo_h c -> snd (oo_control c s r) = if Rlt_dec (oo_h c) (r - s) then oo_on c else oo_off c.
Proof. intros H. unfold oo_control. cbn. destruct (rltP (oo_h c) (r - s)), (Rlt_dec (oo_h c) (r - s)); try tauto. destruct (rltP (r - s) (oo_h c)); [reflexivity|lra]. Qed.

(** *** three-point *)
Definition tp_same (c c' : three) : Prop :=
  tp_pos c' = tp_pos c /\ tp_neg c' = tp_neg c /\ tp_nfp c' = tp_nfp c /\ tp_nfn c' = tp_nfn c /\
  tp_negative c' = tp_negative c /\ tp_positive c' = tp_positive c /\ tp_neutral c' = tp_neutral c.
Lemma tp_control_same c s r : tp_same c (fst (tp_control c s r)).
Proof. unfold tp_control. destruct (_ || _); [|destruct (_ || _)]; repeat split. Qed.
Lemma tp_run_same c h : tp_same c (tp_run c h).
Proof.
  revert c. induction h as [|[s r|] h IH]; intros c; [repeat split| |].
  - cbn [tp_run]. pose proof (tp_control_same c s r) as A. pose proof (IH (fst (tp_control c s r))) as B. unfold tp_same in *. intuition congruence.
  - cbn [tp_run]. pose proof (IH (tp_reset c)) as B. exact B.
Qed.
Lemma tp_run_app c h k : tp_run c (h ++ k) = tp_run (tp_run c h) k.
Proof. revert c. induction h as [|[s r|] h IH]; intros c; [reflexivity| |]; cbn; apply IH. Qed.

Lemma above_snoc hi lo l x : above_since hi lo (l ++ [x]) <-> hi < x \/ (lo < x /\ above_since hi lo l).
Proof.
  split.
  - intros (pre & e & post & E & H1 & H2). destruct post as [|y post'] using rev_ind.
    + apply app_inj_tail in E. destruct E as [-> ->]. left. exact H1.
    + replace (pre ++ e :: post' ++ [y]) with ((pre ++ e :: post') ++ [y]) in E by (rewrite <- app_assoc; reflexivity). apply app_inj_tail in E. destruct E as [-> ->].
      apply Forall_app in H2. destruct H2 as [H2 H3]. inversion H3; subst. right. split; [assumption|]. exists pre, e, post'. auto.
  - intros [H|[H (pre & e & post & -> & H1 & H2)]].
    + exists l, x, []. auto.
    + exists pre, e, (post ++ [x]). split; [rewrite <- app_assoc; reflexivity|]. split; [exact H1|]. apply Forall_app. auto.
Qed.
Lemma above_nil hi lo : ~ above_since hi lo [].
Proof. intros (pre & e & post & E & _). destruct pre; discriminate. Qed.

(** With thresholds that are not negative the two excursions exclude each other. *)
Lemma since_disjoint c l : 0 <= tp_pos c -> 0 <= tp_neg c -> 0 <= tp_nfp c -> 0 <= tp_nfn c -> above_since (tp_pos c) (tp_nfp c) l -> ~ below_since (tp_neg c) (tp_nfn c) l.
Proof.
  intros H1 H2 H3 H4. destruct l as [|x l] using rev_ind; [intros A; destruct (above_nil _ _ A)|]. unfold below_since. rewrite map_app. cbn [map]. rewrite !above_snoc. intros [A|[A _]] [B|[B _]]; lra.
Qed.

Section Tp.
Variable c : three.
Hypothesis P1 : 0 <= tp_pos c.
Hypothesis P2 : 0 <= tp_neg c.
Hypothesis P3 : 0 <= tp_nfp c.
Hypothesis P4 : 0 <= tp_nfn c.
Lemma tp_recent_is l :
  let c' := tp_run (tp_reset c) (controls l) in
  tp_neutral c = 0%Z ->
  (tp_recent c' = 1%Z <-> above_since (tp_pos c) (tp_nfp c) (map err l)) /\
  (tp_recent c' = 2%Z <-> below_since (tp_neg c) (tp_nfn c) (map err l)).
Proof.
  intros c' N. subst c'. induction l as [|[s r] l IH] using rev_ind.
  - cbn. rewrite N. split; split; try discriminate; intros A; destruct (above_nil _ _ A).
  - unfold controls. rewrite map_app, tp_run_app, map_app. fold (controls l). set (c' := tp_run (tp_reset c) (controls l)) in *.
    destruct (tp_run_same (tp_reset c) (controls l)) as (E1 & E2 & E3 & E4 & _). fold c' in E1, E2, E3, E4. cbn [tp_reset tp_with tp_pos tp_neg tp_nfp tp_nfn] in E1, E2, E3, E4.
    cbn [map tp_run fst snd]. unfold below_since in *. rewrite map_app. cbn [map]. rewrite !above_snoc. change (err (s, r)) with (r - s). unfold tp_control. cbv zeta. rewrite E1, E2, E3, E4. destruct IH as [I1 I2].
    set (e := r - s) in *. destruct (Z.eqb_spec (tp_recent c') 1) as [R1|R1]; destruct (Z.eqb_spec (tp_recent c') 2) as [R2|R2]; rewrite ?andb_true_r, ?andb_false_r, ?orb_false_r.
    + rewrite R1 in R2. discriminate.
    + assert (A1 := proj1 I1 R1). assert (A2 : ~ above_since (tp_neg c) (tp_nfn c) (map Ropp (map err l))) by (rewrite <- I2; exact R2).
      rcase; cbn; split; split; intros X; try discriminate; try reflexivity; try lra; try tauto; try (destruct X as [X|[X _]]; lra); try (left; lra); try (right; split; [lra|assumption]); try (destruct X as [X|[X Y]]; [lra|first [tauto|lra]]).
    + assert (A1 := proj1 I2 R2). assert (A2 : ~ above_since (tp_pos c) (tp_nfp c) (map err l)) by (rewrite <- I1; exact R1).
      rcase; cbn; split; split; intros X; try discriminate; try reflexivity; try lra; try tauto; try (destruct X as [X|[X _]]; lra); try (left; lra); try (right; split; [lra|assumption]); try (destruct X as [X|[X Y]]; [lra|first [tauto|lra]]).
    + assert (A1 : ~ above_since (tp_neg c) (tp_nfn c) (map Ropp (map err l))) by (rewrite <- I2; exact R2). assert (A2 : ~ above_since (tp_pos c) (tp_nfp c) (map err l)) by (rewrite <- I1; exact R1).
      rcase; cbn; split; split; intros X; try discriminate; try reflexivity; try lra; try tauto; try (destruct X as [X|[X _]]; lra); try (left; lra); try (destruct X as [X|[X Y]]; [lra|tauto]).
Qed.
End Tp.
(** The output after a call is that of the direction remembered. *)
Lemma tp_output c s r : let (c', a) := tp_control c s r in
  tp_action c' = a /\ a = (if Z.eqb (tp_recent c') 1 then tp_positive c else if Z.eqb (tp_recent c') 2 then tp_negative c else tp_neutral c).
Proof. unfold tp_control. destruct (_ || _); [|destruct (_ || _)]; cbn; auto. Qed.

(** *** valid actions *)
Definition valid_base (n : Z) (b : base) : Prop :=
  match b with
  | BOnOff c => (0 <= oo_on c < n)%Z /\ (0 <= oo_off c < n)%Z /\ (0 <= oo_action c < n)%Z
  | BThree c => (0 <= tp_positive c < n)%Z /\ (0 <= tp_negative c < n)%Z /\ (0 <= tp_neutral c < n)%Z
  | _ => False
  end.
Lemma valid_control n b s r : valid_base n b -> let (b', a) := b_control b s r in valid_base n b' /\ valid_action n a.
Proof.
  destruct b as [c|c|c|c]; try (intros []; fail).
  - cbn [valid_base]. intros (V1 & V2 & V3). unfold b_control, oo_control. cbn. split; [repeat split; try lia|]; rcase; try lia; eexists; split; try reflexivity; lia.
  - cbn [valid_base]. intros (V1 & V2 & V3). unfold b_control, tp_control. destruct (_ || _); [|destruct (_ || _)]; cbn; split; auto; eexists; split; try reflexivity; lia.
Qed.
Lemma valid_reset n b : valid_base n b -> valid_base n (b_reset b).
Proof. destruct b; cbn; tauto. Qed.
Lemma make_discrete e s b control_e n : stage_class (st_type s) = Ok false -> action_count (en_space e) = Ok n -> (2 <= n)%Z -> base_make e s false control_e = Ok b -> valid_base n b.
Proof.
  intros C A N. unfold base_make, off_level. rewrite C, A. cbn [bind].
  destruct (String.eqb (st_type s) "pi_controller") eqn:E1; [apply String.eqb_eq in E1; rewrite E1 in C; discriminate|].
  destruct (String.eqb (st_type s) "pid_controller") eqn:E2; [apply String.eqb_eq in E2; rewrite E2 in C; discriminate|].
  assert (K : forall ns, (forall k, In k ns -> (3 <= k)%Z) -> (0 <= (if existsb (Z.eqb n) ns && negb control_e then 2 else 0) < n)%Z).
  { intros ns H. destruct (existsb (Z.eqb n) ns) eqn:Ex; cbn; [|lia]. apply existsb_exists in Ex. destruct Ex as (k & I & E). apply Z.eqb_eq in E. subst k. specialize (H n I). destruct control_e; cbn; lia. }
  pose proof (K [3; 4]%Z ltac:(intros k I; cbn in I; intuition lia)) as K1. pose proof (K [3; 4; 8]%Z ltac:(intros k I; cbn in I; intuition lia)) as K2.
  destruct (String.eqb (st_type s) "on_off") eqn:E3; intros H; injection H as <-; cbn [valid_base oo_on oo_off oo_action tp_positive tp_negative tp_neutral]; (split; [lia|]; split; [assumption|lia]).
Qed.
Lemma da_run_valid n c h x : valid_base n (da_ctl c) -> da_exc c = None -> da_run c h = Ok x -> forall a, In a (snd x) -> exists v, a = [v] /\ valid_action n v.
Proof.
  revert c x. induction h as [|[s r|] h IH]; intros c x V N.
  - cbn. intros E. injection E as <-. intros a [].
  - cbn [da_run]. unfold da_control. rewrite N. destruct (item s (da_ref_state c)) as [s0|] eqn:E1; [|discriminate]. destruct (item r (da_ref c)) as [r0|] eqn:E2; [|discriminate]. cbn [bind].
    pose proof (valid_control n (da_ctl c) s0 r0 V) as VC. destruct (b_control (da_ctl c) s0 r0) as [b a]. destruct VC as [V1 V2]. cbn [bind fst snd].
    destruct (da_run _ h) as [y|] eqn:E3; [|discriminate]. cbn [bind]. intros E. injection E as <-. cbn [snd]. intros a' [<-|I]; [eexists; split; [reflexivity|exact V2]|].
    revert I. refine (IH _ y _ _ E3 a'); [exact V1|reflexivity].
  - cbn [da_run]. unfold da_reset. rewrite N. cbn [bind]. intros E. refine (IH _ x _ _ E); [apply valid_reset; exact V|reflexivity].
Qed.
