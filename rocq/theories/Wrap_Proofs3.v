(** Proofs about the state noise wrapper. *)
From Verif Require Import PyBase PyBaseFacts PyDict PyDictFacts Conv_Model Transform_Model PhysSys_Model PhysSys_Proofs2 Wrap_Model Wrap_Spec Wrap_Proofs Wrap_Proofs2.
Local Open Scope string_scope. Local Open Scope list_scope. Local Open Scope R_scope.

Lemma put_all_out idx : forall vals a j, ~ In j idx -> nth_error (put_all idx vals a) j = nth_error a j.
Proof.
  induction idx as [|i idx IH]; intros [|v vals] a j H; cbn [put_all]; try reflexivity. rewrite IH by (intros Hi; apply H; now right). rewrite list_set_nth_error. destruct (Nat.eqb_spec i j) as [->|Hj]; [exfalso; apply H; now left|reflexivity].
Qed.
Lemma put_all_in idx : forall vals a k i v, NoDup idx -> nth_error idx k = Some i -> nth_error vals k = Some v -> (i < length a)%nat -> nth_error (put_all idx vals a) i = Some v.
Proof.
  induction idx as [|i0 idx IH]; intros [|v0 vals] a k i v Hn Hi Hv Hl; destruct k as [|k]; try discriminate; cbn [put_all]; inversion Hn as [|x l H1 H2]; subst.
  - cbn in Hi, Hv. injection Hi as ->. injection Hv as ->. rewrite put_all_out by exact H1. rewrite list_set_nth_error, Nat.eqb_refl. destruct (Nat.ltb_spec i (length a)); [reflexivity|lia].
  - cbn in Hi, Hv. eapply IH; eauto. rewrite list_set_length. exact Hl.
Qed.

Section NoiseFacts.
Context {S G Q : Type} (spawn : Q -> G * Q) (draw : nat -> nat -> G -> call G (list (list R))).
Context (len n : nat) (idx : list nat) (m : machine S).
Notation noise := (noise S G Q).

(** State of the generator before its [b]-th draw, and that draw. *)
Fixpoint gen_at (b : nat) (g : G) : G := match b with O => g | Datatypes.S b => fst (draw len (length idx) (gen_at b g)) end.
Definition block (b : nat) (g : G) : res (list (list R)) := snd (draw len (length idx) (gen_at b g)).

Lemma add_noise_ok (x : noise) st rows row : NoDup idx -> (forall i, In i idx -> (i < length st)%nat) -> no_rows x = Some rows -> nth_error rows (no_ptr x) = Some row -> length row = length idx ->
  exists st', add_noise idx x st = ({| no_ptr := Datatypes.S (no_ptr x); no_rows := no_rows x; no_gen := no_gen x; no_seq := no_seq x; no_in := no_in x |}, Ok st') /\ perturbed idx row st st'.
Proof.
  intros Hn Hi Hr Hrow Hl. destruct (select_ok idx st Hi) as (old & E1 & L1 & G1). unfold add_noise. rewrite E1, Hr. cbn [bind]. rewrite Hrow. cbn [bind]. rewrite L1, Hl, Nat.eqb_refl. cbn [bind].
  assert (L2 : length (map2 Rplus old row) = length idx) by (rewrite map2_length; lia).
  assert (E2 : put idx (map2 Rplus old row) st = Ok (put_all idx (map2 Rplus old row) st)).
  { unfold put. replace (forallb (fun i => Nat.ltb i (length st)) idx) with true. - rewrite L2, Nat.eqb_refl. reflexivity. - symmetry. apply forallb_forall. intros i H. apply Nat.ltb_lt. auto. }
  rewrite E2. eexists. split; [reflexivity|]. split; [apply put_all_length|]. split.
  - intros j i e Hj He. assert (Hil : (i < length st)%nat) by (apply Hi; eapply nth_error_In; eauto). destruct (nth_error st i) as [v|] eqn:Ev; [|apply nth_error_None in Ev; lia]. exists v. split; [reflexivity|].
    eapply put_all_in; eauto. rewrite map2_nth_error, (G1 j i Hj), Ev, He. reflexivity.
  - intros i Hni. apply put_all_out. exact Hni.
Qed.

Definition well_shaped : Prop := forall g, exists g' rows, draw len (length idx) g = (g', Ok rows) /\ length rows = len /\ forall row, In row rows -> length row = length idx.

Definition noisy (g : G) (j : nat) (obs obs' : list (list R)) : Prop :=
  length obs' = length obs /\
  forall i o, nth_error obs i = Some o -> exists o' rows row, nth_error obs' i = Some o' /\ block ((j + i) / len) g = Ok rows /\ nth_error rows ((j + i) mod len) = Some row /\ perturbed idx row o o'.

Lemma noisy_cons g j o o' rows row obs obs' : block (j / len) g = Ok rows -> nth_error rows (j mod len) = Some row -> perturbed idx row o o' -> noisy g (Datatypes.S j) obs obs' -> noisy g j (o :: obs) (o' :: obs').
Proof.
  intros H1 H2 H3 [H4 H5]. split; [cbn; lia|]. intros [|i] o1 Hi; cbn [nth_error] in *.
  - injection Hi as <-. rewrite Nat.add_0_r. eauto 10.
  - replace (j + Datatypes.S i)%nat with (Datatypes.S j + i)%nat by lia. apply H5. exact Hi.
Qed.

Lemma sims_noise g : NoDup idx -> (forall i, In i idx -> (i < n)%nat) -> sized n m -> (0 < len)%nat -> well_shaped ->
  forall acts b p (x : noise), (p <= len)%nat -> (0 < p)%nat -> no_ptr x = p -> (exists rows, no_rows x = Some rows /\ block b g = Ok rows) -> no_gen x = gen_at (Datatypes.S b) g ->
  let M := {| m_info := wrap_info (m_info m); m_reset := noise_reset spawn draw len idx m; m_sim := noise_sim draw len idx m |} in
  let r := sims M acts x in let r' := sims m acts (no_in x) in
  no_in (fst r) = fst r' /\ no_seq (fst r) = no_seq x /\ snd (snd r) = snd (snd r') /\ noisy g (b * len + p) (fst (snd r')) (fst (snd r)).
Proof.
  intros Hn Hi Hsz Hlen Hw. induction acts as [|a acts IH]; intros b p x Hp1 Hp2 Hp Hrows Hg; cbn zeta.
  - cbn. split; [reflexivity|]. split; [reflexivity|]. split; [reflexivity|]. split; [reflexivity|]. intros [|i] o; discriminate.
  - cbn [sims m_sim]. destruct Hrows as (rows & Hr & Hb).
    assert (Hstep : exists b' p' rows' x1, (let (x1, u) := if Nat.leb len (no_ptr x) then new_noise draw len idx x else (x, Ok tt) in (x1, u)) = (x1, Ok tt) /\ (p' < len)%nat /\ (b' * len + p' = b * len + p)%nat /\ no_ptr x1 = p' /\ no_rows x1 = Some rows' /\ block b' g = Ok rows' /\ no_gen x1 = gen_at (Datatypes.S b') g /\ no_in x1 = no_in x /\ no_seq x1 = no_seq x).
    { rewrite Hp. destruct (Nat.leb_spec len p) as [Hle|Hlt].
      - destruct (Hw (no_gen x)) as (g' & rows' & Hd & Hl1 & Hl2). unfold new_noise. rewrite Hd. exists (Datatypes.S b), O, rows'. eexists. split; [reflexivity|]. split; [lia|]. split; [cbn; lia|]. cbn [no_ptr no_rows no_gen no_in no_seq].
        split; [reflexivity|]. split; [reflexivity|]. split; [unfold block; rewrite <- Hg, Hd; reflexivity|]. split; [change (gen_at (Datatypes.S (Datatypes.S b)) g) with (fst (draw len (length idx) (gen_at (Datatypes.S b) g))); rewrite <- Hg, Hd; reflexivity|]. split; reflexivity.
      - exists b, p, rows, x. split; [reflexivity|]. repeat split; auto. }
    destruct Hstep as (b' & p' & rows' & x1 & Es & Hp' & Hj & Hp1' & Hr' & Hb' & Hg' & Hin & Hsq).
    assert (Hsim : noise_sim draw len idx m a x = let (s, r) := m_sim m a (no_in x1) in let x2 := {| no_ptr := no_ptr x1; no_rows := no_rows x1; no_gen := no_gen x1; no_seq := no_seq x1; no_in := s |} in match r with Err e => (x2, Err e) | Ok st => add_noise idx x2 st end).
    { unfold noise_sim. destruct (if Nat.leb len (no_ptr x) then new_noise draw len idx x else (x, Ok tt)) as [y u]. apply pair_equal_spec in Es. destruct Es as [-> ->]. reflexivity. }
    rewrite Hsim, Hin. destruct (m_sim m a (no_in x)) as [s [o|e]] eqn:Em.
    2:{ cbn [fst snd no_in no_seq]. split; [reflexivity|]. split; [exact Hsq|]. split; [reflexivity|]. split; [reflexivity|]. intros [|i] o; discriminate. }
    cbn zeta. set (x2 := {| no_ptr := no_ptr x1; no_rows := no_rows x1; no_gen := no_gen x1; no_seq := no_seq x1; no_in := s |}).
    assert (Hsh : length rows' = len /\ forall row, In row rows' -> length row = length idx).
    { destruct (Hw (gen_at b' g)) as (g' & rr & Hd & Hl1 & Hl2). unfold block in Hb'. rewrite Hd in Hb'. cbn [snd] in Hb'. apply Ok_inj in Hb'. subst rr. auto. }
    destruct (nth_error rows' p') as [row|] eqn:Erow; [|apply nth_error_None in Erow; lia].
    pose proof (proj2 Hsz _ _ _ _ Em) as Hlo.
    destruct (add_noise_ok x2 o rows' row Hn ltac:(intros i H; rewrite Hlo; auto) Hr' ltac:(cbn [no_ptr x2]; rewrite Hp1'; exact Erow) ltac:(apply (proj2 Hsh); eapply nth_error_In; eauto)) as (o' & Ea & Hpert).
    rewrite Ea. set (x3 := {| no_ptr := Datatypes.S (no_ptr x2); no_rows := no_rows x2; no_gen := no_gen x2; no_seq := no_seq x2; no_in := no_in x2 |}).
    specialize (IH b' (Datatypes.S p') x3 ltac:(lia) ltac:(lia) ltac:(cbn [no_ptr x3 x2]; lia) ltac:(exists rows'; cbn [no_rows x3 x2]; auto) Hg'). cbn zeta in IH. cbn [x3 x2 no_in] in IH.
    destruct (sims _ acts x3) as [y out]. destruct (sims m acts s) as [y' out']. cbn [fst snd] in *. destruct IH as (I1 & I2 & I3 & I4). split; [exact I1|]. split; [rewrite I2; exact Hsq|]. split; [exact I3|]. cbn [see fst].
    rewrite <- Hj. replace (b' * len + Datatypes.S p')%nat with (Datatypes.S (b' * len + p')) in I4 by lia.
    assert (Hd : ((b' * len + p') / len = b')%nat) by (rewrite Nat.add_comm, Nat.div_add by lia; rewrite Nat.div_small by lia; reflexivity).
    assert (Hm : ((b' * len + p') mod len = p')%nat) by (rewrite Nat.add_comm, Nat.mod_add by lia; apply Nat.mod_small; lia).
    eapply noisy_cons; [rewrite Hd; exact Hb'|rewrite Hm; exact Erow|exact Hpert|exact I4].
Qed.

Lemma episode_noise (x : noise) acts : NoDup idx -> (forall i, In i idx -> (i < n)%nat) -> sized n m -> (0 < len)%nat -> well_shaped ->
  let M := {| m_info := wrap_info (m_info m); m_reset := noise_reset spawn draw len idx m; m_sim := noise_sim draw len idx m |} in
  let r := episode M acts x in let r' := episode m acts (no_in x) in
  no_in (fst r) = fst r' /\ no_seq (fst r) = snd (spawn (no_seq x)) /\ snd (snd r) = snd (snd r') /\ noisy (fst (spawn (no_seq x))) 0 (fst (snd r')) (fst (snd r)).
Proof.
  intros Hn Hi Hsz Hlen Hw. cbn zeta. unfold episode. cbn [m_reset]. unfold noise_reset. destruct (spawn (no_seq x)) as [g q]. cbn [fst snd]. destruct (m_reset m (no_in x)) as [s [o|e]] eqn:Em.
  2:{ cbn. split; [reflexivity|]. split; [reflexivity|]. split; [reflexivity|]. split; [reflexivity|]. intros [|i] o; discriminate. }
  unfold new_noise. cbn [no_gen]. destruct (Hw g) as (g' & rows & Hd & Hl1 & Hl2). rewrite Hd. cbn [no_rows no_seq no_in].
  set (x2 := {| no_ptr := 0; no_rows := Some rows; no_gen := g'; no_seq := q; no_in := s |}). pose proof (proj1 Hsz _ _ _ Em) as Hlo.
  destruct (nth_error rows 0) as [row|] eqn:Erow; [|apply nth_error_None in Erow; lia].
  destruct (add_noise_ok x2 o rows row Hn ltac:(intros i H; rewrite Hlo; auto) eq_refl Erow ltac:(apply Hl2; eapply nth_error_In; eauto)) as (o' & Ea & Hpert). rewrite Ea.
  set (x3 := {| no_ptr := Datatypes.S (no_ptr x2); no_rows := no_rows x2; no_gen := no_gen x2; no_seq := no_seq x2; no_in := no_in x2 |}).
  assert (Hblk : block 0 g = Ok rows) by (unfold block; cbn [gen_at]; rewrite Hd; reflexivity).
  pose proof (sims_noise g Hn Hi Hsz Hlen Hw acts 0 1 x3 ltac:(lia) ltac:(lia) eq_refl ltac:(exists rows; cbn [no_rows x3 x2]; auto) ltac:(cbn [gen_at x3 x2 no_gen]; rewrite Hd; reflexivity)) as IH. cbn zeta in IH. cbn [x3 x2 no_in no_seq] in IH.
  destruct (sims _ acts x3) as [y out]. destruct (sims m acts s) as [y' out']. cbn [fst snd] in *. destruct IH as (I1 & I2 & I3 & I4). split; [exact I1|]. split; [exact I2|]. split; [exact I3|]. cbn [see fst].
  eapply noisy_cons; [rewrite Nat.div_0_l by lia; exact Hblk|rewrite Nat.mod_0_l by lia; exact Erow|exact Hpert|exact I4].
Qed.
End NoiseFacts.
