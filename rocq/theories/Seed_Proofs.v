(** Proofs about random streams. *)
From Verif Require Import PyBase Seed_Model Seed_Spec.
From Coq Require Import Lia.

Section P.
Context {E : Type}.
Implicit Types (c : comp E) (s : seedseq E) (r : rstate E).

Lemma comp_ind' (P : comp E -> Prop) :
  P Plain -> (forall r, P (Leaf r)) ->
  (forall r l, Forall P l -> P (Scml r l)) ->
  (forall r l, Forall P l -> P (Multi r l)) ->
  (forall r c, P c -> P (Wrapped r c)) -> forall c, P c.
Proof.
  intros H1 H2 H3 H4 H5. fix IH 1. intros [| r | r l | r l | r c].
  - exact H1. - apply H2.
  - apply H3. induction l as [|x l IHl]; constructor; [apply IH | exact IHl].
  - apply H4. induction l as [|x l IHl]; constructor; [apply IH | exact IHl].
  - apply H5, IH.
Qed.

(** ** Unfolding equations of [seed_comp] *)
Fixpoint seed_all (l : list (comp E)) s (i : nat) : list (comp E) :=
  match l with
  | [] => []
  | c :: l' => seed_comp c {| ss_id := child_id s i; ss_spawned := 0 |} :: seed_all l' s (S i)
  end.
Fixpoint seed_random (l : list (comp E)) s : list (comp E) * seedseq E :=
  match l with
  | [] => ([], s)
  | c :: l' =>
      if is_random c then
        let (k, s') := spawn1 s in
        let c'' := seed_comp c k in
        let (rest, s'') := seed_random l' s' in (c'' :: rest, s'')
      else let (rest, s'') := seed_random l' s in (c :: rest, s'')
  end.
Lemma seed_scml r l s :
  seed_comp (Scml r l) s =
  Scml {| r_seq := snd (spawn (r_seq (rc_seed s)) (length l)); r_gen := r_gen (rc_seed s) |}
       (seed_all l (r_seq (rc_seed s)) 0).
Proof.
  cbn [seed_comp].
  match goal with |- Scml _ (?go l ?k) = _ =>
    assert (Hgo : forall l i, go l i = seed_all l (r_seq (rc_seed s)) i) end.
  { clear. induction l as [|x l IH]; intros i; [reflexivity|]. cbn [seed_all]. f_equal. apply IH. }
  rewrite Hgo. reflexivity.
Qed.
Lemma seed_multi r l s :
  seed_comp (Multi r l) s =
  let (l', q) := seed_random l (r_seq (rc_seed s)) in
  Multi {| r_seq := q; r_gen := r_gen (rc_seed s) |} l'.
Proof.
  cbn [seed_comp].
  match goal with |- (let (_, _) := ?go l ?q0 in _) = _ =>
    assert (Hgo : forall l q, go l q = seed_random l q) end.
  { clear. induction l as [|x l IH]; intros q; [reflexivity|]. cbn [seed_random].
    destruct (is_random x); [destruct (spawn1 q)|]; rewrite IH; reflexivity. }
  rewrite Hgo. reflexivity.
Qed.
Lemma seed_list_all l s i : seed_list l s i = seed_all l s i.
Proof. revert i; induction l as [|x l IH]; intros i; simpl; [reflexivity|now rewrite IH]. Qed.

(** ** Trees that agree except for the own state of wrappers *)
Inductive sim : comp E -> comp E -> Prop :=
| sim_plain : sim Plain Plain
| sim_leaf r : sim (Leaf r) (Leaf r)
| sim_scml r l l' : Forall2 sim l l' -> sim (Scml r l) (Scml r l')
| sim_multi r l l' : Forall2 sim l l' -> sim (Multi r l) (Multi r l')
| sim_wrap r r' c c' : sim c c' -> sim (Wrapped r c) (Wrapped r' c').

Lemma is_random_shape c c' : shape_of c = shape_of c' -> is_random c = is_random c'.
Proof. destruct c, c'; simpl; congruence. Qed.

Lemma seed_sim c : forall c' s, shape_of c = shape_of c' -> sim (seed_comp c s) (seed_comp c' s).
Proof.
  induction c as [|r|r l IHl|r l IHl|r c0 IH] using comp_ind'; intros c' s Hs;
    destruct c' as [|r'|r' l'|r' l'|r' c0']; try discriminate Hs.
  - constructor.
  - constructor.
  - rewrite !seed_scml. cbn in Hs. injection Hs as Hs.
    assert (Hlen : length l = length l') by (rewrite <- (map_length shape_of l), Hs, map_length; reflexivity).
    rewrite Hlen. constructor. generalize (r_seq (rc_seed s)) 0%nat. clear Hlen.
    revert l' Hs. induction IHl as [|x l Hx _ IHl']; intros [|y l'] Hs q i; try discriminate; constructor.
    + apply Hx. cbn in Hs. congruence.
    + apply IHl'. cbn in Hs. congruence.
  - rewrite !seed_multi. cbn in Hs. injection Hs as Hs.
    assert (Hg : forall q, Forall2 sim (fst (seed_random l q)) (fst (seed_random l' q)) /\
                           snd (seed_random l q) = snd (seed_random l' q)).
    { revert l' Hs. induction IHl as [|x l Hx _ IHl']; intros [|y l'] Hs q; try discriminate.
      - split; constructor.
      - cbn in Hs. injection Hs as Hxy Hs. cbn [seed_random].
        rewrite <- (is_random_shape _ _ Hxy). destruct (is_random x) eqn:Er.
        + unfold spawn1. specialize (IHl' l' Hs {| ss_id := ss_id q; ss_spawned := ss_spawned q + 1 |}).
          destruct (seed_random l _) as [a b], (seed_random l' _) as [a' b']. cbn in *.
          destruct IHl' as [Ha ->]. split; [constructor; auto | reflexivity].
        + specialize (IHl' l' Hs q).
          destruct (seed_random l _) as [a b], (seed_random l' _) as [a' b']. cbn in *.
          destruct IHl' as [Ha ->]. split; [|reflexivity]. constructor; [|exact Ha].
          destruct x, y; try discriminate; constructor. }
    specialize (Hg (r_seq (rc_seed s))).
    destruct (seed_random l _) as [a b], (seed_random l' _) as [a' b']. cbn in Hg.
    destruct Hg as [Ha ->]. constructor. exact Ha.
  - cbn. constructor. apply IH. cbn in Hs. congruence.
Qed.

Lemma update_nth_sim l l' i f :
  (forall a b, sim a b -> sim (f a) (f b)) -> Forall2 sim l l' ->
  Forall2 sim (update_nth i f l) (update_nth i f l').
Proof.
  intros Hf H. revert i. induction H as [|a b l l' Hab H IH]; intros [|i]; simpl; constructor; auto.
Qed.
Lemma next_sim p : forall c c', sim c c' -> sim (next_at p c) (next_at p c').
Proof.
  induction p as [|i p IH]; intros c c' H.
  - destruct H; simpl; constructor; auto.
  - destruct H; simpl; try (constructor; auto using update_nth_sim; fail).
    destruct (Nat.eqb i 0); constructor; auto.
Qed.
Lemma run_next_sim ps : forall l l', Forall2 sim l l' -> Forall2 sim (run_next ps l) (run_next ps l').
Proof.
  induction ps as [|p ps IH]; intros l l' H; [exact H|]. simpl. apply IH.
  destruct p as [|i p]; [exact H|]. simpl. apply update_nth_sim; [apply next_sim | exact H].
Qed.

Lemma sim_shape c : forall c', sim c c' -> shape_of c = shape_of c'.
Proof.
  induction c as [|r|r l IHl|r l IHl|r c0 IH] using comp_ind'; intros c' H; inversion H; subst; clear H; simpl; try reflexivity.
  - f_equal. revert IHl. match goal with X : Forall2 _ _ _ |- _ => induction X as [|a b x y Hab _ IHx] end; intros IHl; [reflexivity|].
    inversion IHl; subst. simpl. f_equal; auto.
  - f_equal. revert IHl. match goal with X : Forall2 _ _ _ |- _ => induction X as [|a b x y Hab _ IHx] end; intros IHl; [reflexivity|].
    inversion IHl; subst. simpl. f_equal; auto.
  - f_equal; auto.
Qed.

Lemma Forall2_nth l l' i : Forall2 sim l l' ->
  match nth_error l i, nth_error l' i with
  | Some a, Some b => sim a b | None, None => True | _, _ => False end.
Proof. intros H. revert i. induction H as [|a b l l' Hab H IH]; intros [|i]; simpl; auto. apply IH. Qed.

Lemma sim_state p : forall c c', sim c c' -> seeded_pos p (shape_of c) -> state_at p c = state_at p c'.
Proof.
  induction p as [|i p IH]; intros c c' H Hp.
  - destruct H; simpl in *; try contradiction; reflexivity.
  - destruct H; simpl in *; try contradiction.
    + rewrite nth_error_map in Hp. pose proof (Forall2_nth _ _ i H) as Hn.
      destruct (nth_error l i), (nth_error l' i); simpl in *; try contradiction. auto.
    + rewrite nth_error_map in Hp. pose proof (Forall2_nth _ _ i H) as Hn.
      destruct (nth_error l i), (nth_error l' i); simpl in *; try contradiction. auto.
    + destruct Hp as [-> Hp]. simpl. auto.
Qed.

(** ** Key discipline *)
Definition okr (e : E) (K : list nat) (m : nat) r : Prop :=
  ss_id (r_seq r) = (e, K) /\ (m < ss_spawned (r_seq r))%nat /\
  exists i, r_gen r = (e, K ++ [i]) /\ (i = 0 \/ m < i)%nat /\ (i < ss_spawned (r_seq r))%nat.

Fixpoint nrandom (l : list (comp E)) : nat :=
  match l with [] => 0 | c :: l' => (if is_random c then 1 else 0) + nrandom l' end.

Inductive okc (e : E) : list nat -> comp E -> Prop :=
| ok_plain K : okc e K Plain
| ok_leaf K r : okr e K 0 r -> okc e K (Leaf r)
| ok_scml K r l : okr e K (length l) r ->
    (forall i c, nth_error l i = Some c -> okc e (K ++ [S i]) c) -> okc e K (Scml r l)
| ok_multi K r l : okr e K (nrandom l) r ->
    (forall i c, nth_error l i = Some c -> is_random c = true ->
       okc e (K ++ [S (nrandom (firstn i l))]) c) -> okc e K (Multi r l)
| ok_wrap K r c : okc e K c -> okc e K (Wrapped r c).

Definition new_seq (e : E) K : seedseq E := {| ss_id := (e, K); ss_spawned := 0 |}.

Lemma seed_all_nth l : forall s i j c', nth_error (seed_all l s i) j = Some c' ->
  exists c, nth_error l j = Some c /\ c' = seed_comp c {| ss_id := child_id s (i + j); ss_spawned := 0 |}.
Proof.
  induction l as [|x l IH]; intros s i [|j] c' H; simpl in *; try discriminate.
  - injection H as <-. exists x. rewrite Nat.add_0_r. auto.
  - destruct (IH _ _ _ _ H) as (c & Hc & ->). exists c. rewrite Nat.add_succ_r. auto.
Qed.
Lemma seed_all_length l : forall s i, length (seed_all l s i) = length l.
Proof. induction l; simpl; intros; auto. Qed.

Lemma is_random_seed c s : is_random (seed_comp c s) = is_random c.
Proof. destruct c; try reflexivity. rewrite seed_multi. destruct (seed_random _ _). reflexivity. Qed.

Lemma seed_random_spec l : forall s l' q, seed_random l s = (l', q) ->
  nrandom l' = nrandom l /\ ss_id q = ss_id s /\ ss_spawned q = (ss_spawned s + nrandom l)%nat /\
  (forall j, nrandom (firstn j l') = nrandom (firstn j l)) /\
  forall j c', nth_error l' j = Some c' -> is_random c' = true ->
    exists c, nth_error l j = Some c /\
      c' = seed_comp c {| ss_id := child_id s (nrandom (firstn j l)); ss_spawned := 0 |}.
Proof.
  induction l as [|x l IH]; intros s l' q H; cbn [seed_random] in H.
  - injection H as <- <-. simpl. split; [reflexivity|]. split; [reflexivity|]. split; [lia|]. split.
    + intros [|j]; reflexivity.
    + intros [|j] c' Hc; discriminate.
  - destruct (is_random x) eqn:Er.
    + unfold spawn1 in H. destruct (seed_random l _) as [a b] eqn:Ea. injection H as <- <-.
      destruct (IH _ _ _ Ea) as (H1 & H2 & H3 & H4 & H5). cbn [ss_id ss_spawned] in *.
      split; [|split; [|split; [|split]]].
      * cbn [nrandom]. rewrite is_random_seed, Er. lia.
      * exact H2.
      * cbn [nrandom]. rewrite Er. lia.
      * intros [|j]; [reflexivity|]. cbn [firstn nrandom]. rewrite is_random_seed, H4. reflexivity.
      * intros [|j] c' Hc Hr; cbn [nth_error] in Hc.
        -- injection Hc as <-. exists x. auto.
        -- destruct (H5 _ _ Hc Hr) as (c & Hc1 & ->). exists c. split; [exact Hc1|].
           cbn [firstn nrandom]. rewrite Er. unfold child_id; cbn [ss_id ss_spawned].
           do 2 f_equal. f_equal. f_equal. f_equal. lia.
    + destruct (seed_random l _) as [a b] eqn:Ea. injection H as <- <-.
      destruct (IH _ _ _ Ea) as (H1 & H2 & H3 & H4 & H5).
      split; [|split; [|split; [|split]]].
      * cbn [nrandom]. lia.
      * exact H2.
      * cbn [nrandom]. rewrite Er. lia.
      * intros [|j]; [reflexivity|]. cbn [firstn nrandom]. rewrite H4. reflexivity.
      * intros [|j] c' Hc Hr; cbn [nth_error] in Hc.
        -- injection Hc as <-. congruence.
        -- destruct (H5 _ _ Hc Hr) as (c & Hc1 & ->). exists c. split; [exact Hc1|].
           cbn [firstn nrandom]. rewrite Er. reflexivity.
Qed.

Lemma rc_seed_new e K : rc_seed (new_seq e K) =
  {| r_seq := {| ss_id := (e, K); ss_spawned := 1 |}; r_gen := (e, K ++ [0%nat]) |}.
Proof. reflexivity. Qed.

Lemma seed_ok c : forall e K, okc e K (seed_comp c (new_seq e K)).
Proof.
  induction c as [|r|r l IHl|r l IHl|r c0 IH] using comp_ind'; intros e K.
  - constructor.
  - cbn. constructor. split; [reflexivity|]. split; [cbn; lia|]. exists 0%nat. cbn. repeat split; auto.
  - rewrite seed_scml, rc_seed_new. cbn [r_seq r_gen spawn snd ss_id ss_spawned]. constructor.
    + rewrite seed_all_length. split; [reflexivity|]. cbn [r_seq ss_spawned]. split; [lia|].
      exists 0%nat. cbn. repeat split; auto. lia.
    + intros i c' Hc. destruct (seed_all_nth _ _ _ _ _ Hc) as (c & Hn & ->).
      rewrite Forall_forall in IHl. apply (IHl c (nth_error_In _ _ Hn) e (K ++ [S i])).
  - rewrite seed_multi, rc_seed_new. cbn [r_seq r_gen].
    destruct (seed_random l _) as [l' q] eqn:Eq.
    destruct (seed_random_spec _ _ _ _ Eq) as (H1 & H2 & H3 & H4 & H5). cbn [ss_id ss_spawned] in *.
    constructor.
    + split; [exact H2|]. cbn [r_seq]. split; [lia|]. exists 0%nat. cbn. repeat split; auto. lia.
    + intros i c' Hc Hr. destruct (H5 _ _ Hc Hr) as (c & Hn & ->).
      rewrite Forall_forall in IHl. rewrite H4.
      apply (IHl c (nth_error_In _ _ Hn) e (K ++ [S (nrandom (firstn i l))])).
  - cbn. constructor. apply IH.
Qed.

Lemma rc_next_ok e K m r : okr e K m r -> okr e K m (rc_next r).
Proof.
  intros (H1 & H2 & i & H3 & H4 & H5). unfold rc_next, spawn1. cbn.
  split; [exact H1|]. cbn. split; [lia|]. exists (ss_spawned (r_seq r)).
  unfold child_id. rewrite H1, Nat.add_0_r. cbn. repeat split; [lia | lia].
Qed.

Lemma is_random_next p c : is_random (next_at p c) = is_random c.
Proof. destruct p as [|i p], c; simpl; try reflexivity. destruct (Nat.eqb i 0); reflexivity. Qed.
Lemma update_nth_nth {A} (l : list A) i f j :
  nth_error (update_nth i f l) j = if Nat.eqb i j then option_map f (nth_error l j) else nth_error l j.
Proof.
  revert i j. induction l as [|x l IH]; intros [|i] [|j]; simpl; try reflexivity.
  - destruct (Nat.eqb i j); reflexivity.
  - apply IH.
Qed.
Lemma update_nth_length {A} (l : list A) i f : length (update_nth i f l) = length l.
Proof. revert i. induction l as [|x l IH]; intros [|i]; simpl; auto. Qed.
Lemma update_nth_nrandom l i p j :
  nrandom (firstn j (update_nth i (next_at p) l)) = nrandom (firstn j l).
Proof.
  revert i j. induction l as [|x l IH]; intros [|i] [|j]; simpl; try reflexivity.
  - now rewrite is_random_next.
  - now rewrite IH.
Qed.
Lemma nrandom_firstn_all l : nrandom l = nrandom (firstn (length l) l).
Proof. now rewrite firstn_all. Qed.

Lemma next_ok p : forall c e K, okc e K c -> okc e K (next_at p c).
Proof.
  induction p as [|i p IH]; intros c e K H.
  - destruct H; simpl; constructor; auto using rc_next_ok.
  - destruct H as [K|K r Hr|K r l Hr Hl|K r l Hr Hl|K r c H]; simpl.
    + constructor.
    + constructor; auto.
    + constructor; [now rewrite update_nth_length|].
      intros j c Hc. rewrite update_nth_nth in Hc. destruct (Nat.eqb i j) eqn:Eij; [|auto].
      destruct (nth_error l j) as [c0|] eqn:En; [|discriminate]. injection Hc as <-. auto.
    + constructor.
      * rewrite (nrandom_firstn_all (update_nth _ _ _)), update_nth_nrandom, update_nth_length,
          <- nrandom_firstn_all. exact Hr.
      * intros j c Hc Hrc. rewrite update_nth_nrandom. rewrite update_nth_nth in Hc.
        destruct (Nat.eqb i j) eqn:Eij; [|auto].
        destruct (nth_error l j) as [c0|] eqn:En; [|discriminate]. injection Hc as <-.
        rewrite is_random_next in Hrc. auto.
    + destruct (Nat.eqb i 0); constructor; auto.
Qed.

Definition oke (e : E) (cs : list (comp E)) : Prop :=
  forall i c, nth_error cs i = Some c -> okc e [i] c.
Lemma env_seed_ok cs e : oke e (env_seed cs e).
Proof.
  intros i c H. unfold env_seed in H. rewrite seed_list_all in H.
  destruct (seed_all_nth _ _ _ _ _ H) as (c0 & _ & ->).
  apply (seed_ok c0 e [i]).
Qed.
Lemma env_next_ok e p cs : oke e cs -> oke e (env_next p cs).
Proof.
  destruct p as [|i p]; intros H; [exact H|]. intros j c Hc. simpl in Hc.
  rewrite update_nth_nth in Hc. destruct (Nat.eqb i j); [|auto].
  destruct (nth_error cs j) as [c0|] eqn:En; [|discriminate]. injection Hc as <-. auto using next_ok.
Qed.
Lemma run_next_ok e ps : forall cs, oke e cs -> oke e (run_next ps cs).
Proof. induction ps as [|p ps IH]; intros cs H; [exact H|]. simpl. auto using env_next_ok. Qed.

(** Shapes never change. *)
Lemma seed_shape c : forall s, shape_of (seed_comp c s) = shape_of c.
Proof.
  induction c as [|r|r l IHl|r l IHl|r c0 IH] using comp_ind'; intros s; try reflexivity.
  - assert (Hg : forall q i, map shape_of (seed_all l q i) = map shape_of l).
    { induction IHl as [|x l Hx _ IHl']; intros q i; simpl; [reflexivity|]. now rewrite Hx, IHl'. }
    rewrite seed_scml. cbn [shape_of]. now rewrite Hg.
  - rewrite seed_multi. assert (Hg : forall q, map shape_of (fst (seed_random l q)) = map shape_of l).
    { induction IHl as [|x l Hx _ IHl']; intros q; [reflexivity|]. cbn [seed_random].
      destruct (is_random x).
      - unfold spawn1. specialize (IHl' {| ss_id := ss_id q; ss_spawned := ss_spawned q + 1 |}).
        destruct (seed_random l _). cbn in *. now rewrite Hx, IHl'.
      - specialize (IHl' q). destruct (seed_random l _). cbn in *. now rewrite IHl'. }
    specialize (Hg (r_seq (rc_seed s))). destruct (seed_random l _). cbn in *. now rewrite Hg.
  - simpl. now rewrite IH.
Qed.
Lemma map_update_nth_shape (l : list (comp E)) i f : (forall c, shape_of (f c) = shape_of c) ->
  map shape_of (update_nth i f l) = map shape_of l.
Proof. intros Hf. revert i. induction l as [|x l IH]; intros [|i]; simpl; auto; [now rewrite Hf|now rewrite IH]. Qed.
Lemma next_shape p : forall c, shape_of (next_at p c) = shape_of c.
Proof.
  induction p as [|i p IH]; intros [|r|r l|r l|r c]; simpl; try reflexivity.
  - now rewrite map_update_nth_shape.
  - now rewrite map_update_nth_shape.
  - destruct (Nat.eqb i 0); simpl; [now rewrite IH | reflexivity].
Qed.
Lemma env_seed_shape (cs : list (comp E)) e : map shape_of (env_seed cs e) = map shape_of cs.
Proof.
  unfold env_seed. rewrite seed_list_all. generalize (ss_new e). generalize 0%nat. intros i s. revert i. induction cs as [|c cs IH]; intros i; simpl; [reflexivity|].
  now rewrite seed_shape, IH.
Qed.
Lemma run_next_shape ps : forall cs : list (comp E), map shape_of (run_next ps cs) = map shape_of cs.
Proof.
  induction ps as [|p ps IH]; intros cs; [reflexivity|]. change (run_next (p :: ps) cs) with (run_next ps (env_next p cs)). rewrite IH.
  destruct p as [|i p]; [reflexivity|]. apply map_update_nth_shape, next_shape.
Qed.

(** ** Keys at a position *)
Fixpoint key (p : list nat) (c : comp E) : list nat :=
  match p with
  | [] => []
  | i :: p' => match c with
               | Scml _ l => match nth_error l i with Some c' => S i :: key p' c' | None => [] end
               | Multi _ l => match nth_error l i with
                              | Some c' => S (nrandom (firstn i l)) :: key p' c' | None => [] end
               | Wrapped _ c' => key p' c'
               | _ => []
               end
  end.

Lemma random_of_pos p c : seeded_pos p (shape_of c) -> is_random c = true.
Proof. destruct p, c; simpl; tauto. Qed.

Lemma ok_state p : forall c e K, okc e K c -> seeded_pos p (shape_of c) ->
  exists r m, state_at p c = Some r /\ okr e (K ++ key p c) m r.
Proof.
  induction p as [|i p IH]; intros c e K H Hp.
  - destruct H; simpl in *; try contradiction; rewrite app_nil_r; eauto.
  - destruct H as [K|K r Hr|K r l Hr Hl|K r l Hr Hl|K r c H]; simpl in Hp; try contradiction.
    + rewrite nth_error_map in Hp. simpl. destruct (nth_error l i) as [c|] eqn:En; [|contradiction].
      destruct (IH c e (K ++ [S i]) (Hl _ _ En) Hp) as (r' & m & H1 & H2).
      exists r', m. rewrite <- app_assoc in H2. auto.
    + rewrite nth_error_map in Hp. simpl. destruct (nth_error l i) as [c|] eqn:En; [|contradiction].
      destruct (IH c e _ (Hl _ _ En (random_of_pos _ _ Hp)) Hp) as (r' & m & H1 & H2).
      exists r', m. rewrite <- app_assoc in H2. auto.
    + destruct Hp as [-> Hp]. destruct (IH c e K H Hp) as (r' & m & H1 & H2).
      exists r', m. simpl. auto.
Qed.

Lemma nrandom_firstn_le l : forall i j, (i <= j)%nat -> (nrandom (firstn i l) <= nrandom (firstn j l))%nat.
Proof.
  induction l as [|x l IH]; intros [|i] [|j] H; simpl; try lia. specialize (IH i j). lia.
Qed.
Lemma nrandom_firstn_S l : forall i c, nth_error l i = Some c -> is_random c = true ->
  nrandom (firstn (S i) l) = S (nrandom (firstn i l)).
Proof.
  induction l as [|x l IH]; intros [|i] c H Hr; simpl in *; try discriminate.
  - injection H as ->. now rewrite Hr.
  - rewrite (IH _ _ H Hr). lia.
Qed.
Lemma nrandom_inj l i j ci cj : nth_error l i = Some ci -> nth_error l j = Some cj ->
  is_random ci = true -> is_random cj = true ->
  nrandom (firstn i l) = nrandom (firstn j l) -> i = j.
Proof.
  intros Hi Hj Ri Rj He.
  pose proof (nrandom_firstn_S _ _ _ Hi Ri). pose proof (nrandom_firstn_S _ _ _ Hj Rj).
  destruct (Nat.lt_trichotomy i j) as [Hlt|[Heq|Hgt]]; [|exact Heq|].
  - pose proof (nrandom_firstn_le l (S i) j Hlt). lia.
  - pose proof (nrandom_firstn_le l (S j) i Hgt). lia.
Qed.

Lemma key_inj p : forall q c, seeded_pos p (shape_of c) -> seeded_pos q (shape_of c) ->
  key p c = key q c -> p = q.
Proof.
  induction p as [|i p IH]; intros q c Hp Hq He.
  - destruct q as [|j q]; [reflexivity|]. destruct c as [|r|r l|r l|r c]; simpl in *; try contradiction.
    + rewrite nth_error_map in Hq. destruct (nth_error l j); [discriminate He|contradiction Hq].
    + rewrite nth_error_map in Hq. destruct (nth_error l j); [discriminate He|contradiction Hq].
  - destruct c as [|r|r l|r l|r c]; simpl in Hp; try contradiction.
    + rewrite nth_error_map in Hp. simpl in He. destruct (nth_error l i) as [ci|] eqn:Ei; [|contradiction].
      destruct q as [|j q]; [discriminate|]. simpl in Hq, He. rewrite nth_error_map in Hq.
      destruct (nth_error l j) as [cj|] eqn:Ej; [|contradiction]. injection He as Hij He. subst j.
      rewrite Ei in Ej. injection Ej as <-. f_equal. exact (IH q ci Hp Hq He).
    + rewrite nth_error_map in Hp. simpl in He. destruct (nth_error l i) as [ci|] eqn:Ei; [|contradiction].
      destruct q as [|j q]; [discriminate|]. simpl in Hq, He. rewrite nth_error_map in Hq.
      destruct (nth_error l j) as [cj|] eqn:Ej; [|contradiction]. injection He as Hij He.
      assert (i = j) as <- by (exact (nrandom_inj l i j ci cj Ei Ej (random_of_pos p ci Hp) (random_of_pos q cj Hq) Hij)).
      rewrite Ei in Ej. injection Ej as <-. f_equal. exact (IH q ci Hp Hq He).
    + destruct Hp as [-> Hp]. destruct q as [|j q]; simpl in Hq; [contradiction|].
      destruct Hq as [-> Hq]. f_equal. simpl in He. exact (IH q c Hp Hq He).
Qed.

Lemma nrandom_shape l l' : map shape_of l = map shape_of l' -> nrandom l = nrandom l'.
Proof.
  revert l'. induction l as [|x l IH]; intros [|y l'] H; simpl in *; try discriminate; [reflexivity|].
  injection H as H1 H2. rewrite (is_random_shape _ _ H1), (IH _ H2). reflexivity.
Qed.
Lemma key_shape p : forall c c', shape_of c = shape_of c' -> key p c = key p c'.
Proof.
  induction p as [|i p IH]; intros c c' H; [reflexivity|].
  destruct c as [|r|r l|r l|r c], c' as [|r'|r' l'|r' l'|r' c']; try discriminate; simpl in *; try reflexivity.
  - injection H as H. assert (Hn := f_equal (fun z => nth_error z i) H). cbv beta in Hn. rewrite !nth_error_map in Hn.
    destruct (nth_error l i), (nth_error l' i); simpl in Hn; try discriminate; [|reflexivity].
    injection Hn as Hn. now rewrite (IH _ _ Hn).
  - injection H as H. assert (Hn := f_equal (fun z => nth_error z i) H). cbv beta in Hn. rewrite !nth_error_map in Hn.
    assert (Hr : nrandom (firstn i l) = nrandom (firstn i l'))
      by (apply nrandom_shape; now rewrite !firstn_map, H || (rewrite <- !firstn_map, H)).
    destruct (nth_error l i), (nth_error l' i); simpl in Hn; try discriminate; [|reflexivity].
    injection Hn as Hn. now rewrite (IH _ _ Hn), Hr.
  - apply IH. congruence.
Qed.

Lemma oke_state e cs p : oke e cs -> env_seeded_pos p (map shape_of cs) ->
  exists i p' c r m, p = i :: p' /\ nth_error cs i = Some c /\ seeded_pos p' (shape_of c) /\
    env_state_at p cs = Some r /\ okr e (i :: key p' c) m r.
Proof.
  intros H Hp. destruct p as [|i p']; [contradiction|]. simpl in *.
  rewrite nth_error_map in Hp. destruct (nth_error cs i) as [c|] eqn:En; [|contradiction].
  destruct (ok_state p' c e [i] (H _ _ En) Hp) as (r & m & H1 & H2).
  exists i, p', c, r, m. auto.
Qed.

(** Two positions never share a sequence, and so never a stream, at any two times. *)
Lemma streams_distinct e cs cs' p q rp rq :
  oke e cs -> oke e cs' -> map shape_of cs = map shape_of cs' ->
  env_seeded_pos p (map shape_of cs) -> env_seeded_pos q (map shape_of cs) -> p <> q ->
  env_state_at p cs = Some rp -> env_state_at q cs' = Some rq ->
  r_gen rp <> r_gen rq /\ ss_id (r_seq rp) <> ss_id (r_seq rq).
Proof.
  intros H H' Hsh Hp Hq Hne Ep Eq.
  destruct (oke_state e cs p H Hp) as (i & p' & c & r & m & -> & En & Hp' & Es & Hr).
  rewrite Hsh in Hq.
  destruct (oke_state e cs' q H' Hq) as (j & q' & c' & r' & m' & -> & En' & Hq' & Es' & Hr').
  rewrite Es in Ep. injection Ep as <-. rewrite Es' in Eq. injection Eq as <-.
  destruct Hr as (H1 & _ & a & H2 & _). destruct Hr' as (H1' & _ & b & H2' & _).
  assert (Hk : i :: key p' c <> j :: key q' c').
  { intros He. injection He as -> He. apply Hne. f_equal.
    assert (Hs : shape_of c = shape_of c').
    { assert (Hn := f_equal (fun z => nth_error z j) Hsh). cbv beta in Hn. rewrite !nth_error_map, En, En' in Hn.
      simpl in Hn. congruence. }
    rewrite <- (key_shape q' _ _ Hs) in He. rewrite <- Hs in Hq'. eapply key_inj; eauto. }
  split.
  - rewrite H2, H2'. intros He. injection He as He.
    assert (Hl : i :: key p' c = j :: key q' c').
    { change (i :: key p' c ++ [a]) with ((i :: key p' c) ++ [a]) in *.
      change (j :: key q' c' ++ [b]) with ((j :: key q' c') ++ [b]) in *.
      apply (app_inj_tail (i :: key p' c) (j :: key q' c') a b). simpl. congruence. }
    contradiction.
  - rewrite H1, H1'. intros He. apply Hk. congruence.
Qed.

(** [next_generator] gives a stream of larger number to the addressed component
    and leaves the others alone. *)
Definition gen_index r : nat := last (snd (r_gen r)) 0%nat.

Lemma state_next_same p : forall c r, state_at p c = Some r -> state_at p (next_at p c) = Some (rc_next r).
Proof.
  induction p as [|i p IH]; intros c r H.
  - destruct c; simpl in *; try discriminate; congruence.
  - destruct c as [|r0|r0 l|r0 l|r0 c]; simpl in *; try discriminate.
    + rewrite update_nth_nth, Nat.eqb_refl. destruct (nth_error l i); [simpl; auto|discriminate].
    + rewrite update_nth_nth, Nat.eqb_refl. destruct (nth_error l i); [simpl; auto|discriminate].
    + destruct i as [|i]; [|discriminate]. simpl. auto.
Qed.
Lemma state_next_other p : forall q c, p <> q -> state_at p (next_at q c) = state_at p c.
Proof.
  induction p as [|i p IH]; intros [|j q] c Hne; try congruence.
  - destruct c; simpl; try reflexivity. destruct (Nat.eqb j 0); reflexivity.
  - destruct c; simpl; reflexivity.
  - destruct c as [|r0|r0 l|r0 l|r0 c]; simpl; try reflexivity.
    + rewrite update_nth_nth. destruct (Nat.eqb j i) eqn:Eij; [|reflexivity].
      apply Nat.eqb_eq in Eij. subst j. destruct (nth_error l i); simpl; [|reflexivity].
      apply IH. congruence.
    + rewrite update_nth_nth. destruct (Nat.eqb j i) eqn:Eij; [|reflexivity].
      apply Nat.eqb_eq in Eij. subst j. destruct (nth_error l i); simpl; [|reflexivity].
      apply IH. congruence.
    + destruct (Nat.eqb j 0) eqn:Ej; simpl; destruct (Nat.eqb i 0) eqn:Ei; try reflexivity.
      apply Nat.eqb_eq in Ej, Ei. subst. apply IH. congruence.
Qed.
Lemma env_state_next_same p cs r : env_state_at p cs = Some r ->
  env_state_at p (env_next p cs) = Some (rc_next r).
Proof.
  destruct p as [|i p]; simpl; [discriminate|]. rewrite update_nth_nth, Nat.eqb_refl.
  destruct (nth_error cs i); [simpl; apply state_next_same|discriminate].
Qed.
Lemma env_state_next_other p q (cs : list (comp E)) : p <> q -> env_state_at p (env_next q cs) = env_state_at p cs.
Proof.
  intros Hne. destruct p as [|i p]; [reflexivity|]. destruct q as [|j q]; [reflexivity|]. simpl.
  rewrite update_nth_nth. destruct (Nat.eqb j i) eqn:Eij; [|reflexivity].
  apply Nat.eqb_eq in Eij. subst j. destruct (nth_error cs i); simpl; [|reflexivity].
  apply state_next_other. congruence.
Qed.

(** Numbers of streams: the spawn counter only grows, and the stream in use has a
    smaller number than the counter. *)
Definition wf_rs r : Prop :=
  exists i, r_gen r = (fst (ss_id (r_seq r)), snd (ss_id (r_seq r)) ++ [i]) /\ (i < ss_spawned (r_seq r))%nat.
Lemma rc_next_wf r : wf_rs (rc_next r).
Proof. exists (ss_spawned (r_seq r)). unfold rc_next, spawn1, child_id. cbn. rewrite Nat.add_0_r. split; [reflexivity|lia]. Qed.

Lemma run_next_grows ps : forall cs p r, env_state_at p cs = Some r -> wf_rs r ->
  exists r', env_state_at p (run_next ps cs) = Some r' /\
    (ss_id (r_seq r') = ss_id (r_seq r)) /\ wf_rs r' /\
    (r' = r \/ exists i, r_gen r' = (fst (ss_id (r_seq r)), snd (ss_id (r_seq r)) ++ [i]) /\
                 (ss_spawned (r_seq r) <= i)%nat).
Proof.
  induction ps as [|q ps IH]; intros cs p r H Hw.
  - exists r. auto.
  - simpl. destruct (list_eq_dec Nat.eq_dec p q) as [->|Hne].
    + destruct (IH _ _ _ (env_state_next_same _ _ _ H) (rc_next_wf r)) as (r' & H1 & H2 & H3 & H4).
      exists r'. split; [exact H1|]. split; [exact H2|]. split; [exact H3|]. right.
      destruct H4 as [->|(i & Hi & Hle)].
      * exists (ss_spawned (r_seq r)). unfold rc_next, spawn1, child_id. cbn. rewrite Nat.add_0_r. auto.
      * exists i. split; [exact Hi|]. cbn in Hle. lia.
    + apply IH; [|exact Hw]. rewrite env_state_next_other by exact Hne. exact H.
Qed.

(** Once a component got a new generator it never draws from the old stream again. *)
Lemma stream_never_repeats cs p r ps : env_state_at p cs = Some r -> wf_rs r ->
  stream_at p (run_next (p :: ps) cs) <> Some (r_gen r).
Proof.
  intros H Hw. simpl.
  destruct (run_next_grows ps _ _ _ (env_state_next_same _ _ _ H) (rc_next_wf r)) as (r' & H1 & _ & _ & H4).
  unfold stream_at, run_next in *. rewrite H1. cbn [option_map]. intros He. injection He as He.
  destruct Hw as (a & Ha & Hla). rewrite Ha in He.
  destruct H4 as [->|(i & Hi & Hle)].
  - unfold rc_next, spawn1, child_id in He. cbn in He. rewrite Nat.add_0_r in He.
    injection He as He. apply app_inj_tail in He. lia.
  - rewrite Hi in He. cbn in He, Hle. injection He as He. apply app_inj_tail in He. lia.
Qed.

Lemma okr_wf e K m r : okr e K m r -> wf_rs r.
Proof. intros (H1 & _ & i & H2 & _ & H3). exists i. rewrite H1. auto. Qed.

(** The wrapper's own state survives seeding. *)
Lemma seed_wrapper r c s : root_state (seed_comp (Wrapped r c) s) = Some r.
Proof. reflexivity. Qed.

End P.
