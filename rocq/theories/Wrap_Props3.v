(** Theorems about the state noise wrapper (state_noise_processor.py). *)
From Verif Require Import PyBase PyBaseFacts PyDict PyDictFacts Conv_Model Transform_Model PhysSys_Model Wrap_Model Wrap_Spec Wrap_Proofs Wrap_Proofs2 Wrap_Proofs3 Wrap_Props2.
Local Open Scope string_scope. Local Open Scope list_scope. Local Open Scope R_scope.

(** ** C59 Noise on selected states *)
Lemma block_draw {G} (draw : nat -> nat -> G -> call G (list (list R))) len idx b g : block draw len idx b g = nth_draw (draw len (length idx)) b g.
Proof. unfold block, nth_draw. do 2 f_equal. induction b as [|b IH]; [reflexivity|]. cbn [gen_at gen_after]. rewrite IH. reflexivity. Qed.

(** An episode shows the observations of the inner system with noise: observation j gets row
    j mod len of draw j / len of the generator spawned at the reset, entry i of the row on
    the i-th named state; other states are unchanged.  So every row is used once and no row
    is missing; exceptions are those of the inner system. *)
Theorem noise_episode :
  forall S G Q (spawn : Q -> G * Q) draw n len ks (m : machine S) M x acts,
  aligned n (m_info m) -> sized n m -> NoDup ks -> (0 < len)%nat ->
  (forall g, exists g' rows, draw len (length ks) g = (g', Ok rows) /\ length rows = len /\ forall row, In row rows -> length row = length ks) ->
  noise_machine spawn draw (StList ks) len m = Ok M ->
  exists idx, length idx = length ks /\ (forall j k, nth_error ks j = Some k -> exists i, nth_error idx j = Some i /\ nth_error (i_names (m_info m)) i = Some k) /\
    let out := snd (episode M acts x) in let inner := snd (episode m acts (no_in x)) in
    snd out = snd inner /\ length (fst out) = length (fst inner) /\ no_in (fst (episode M acts x)) = fst (episode m acts (no_in x)) /\
    forall j o, nth_error (fst inner) j = Some o -> exists o' rows row,
      nth_error (fst out) j = Some o' /\ nth_draw (draw len (length ks)) (j / len) (fst (spawn (no_seq x))) = Ok rows /\ nth_error rows (j mod len) = Some row /\ perturbed idx row o o'.
Proof.
  intros S G Q spawn draw n len ks m M x acts Ha Hs Hk Hlen Hw H. unfold noise_machine in H. destruct (dict_items ks (i_pos (m_info m))) as [idx|] eqn:E; [|discriminate]. cbn [bind] in H. apply Ok_inj in H. subst M.
  destruct Ha as (L1 & L2 & L3 & L4 & L5 & Hn & Hp). destruct (dict_items_inv _ _ _ _ Hp E) as (L & GG & B). exists idx. split; [exact L|]. split; [exact GG|]. cbn zeta.
  assert (Hw' : well_shaped draw len idx) by (unfold well_shaped; rewrite L; exact Hw).
  destruct (episode_noise spawn draw len n idx m x acts (dict_items_nodup _ _ _ _ Hk Hp E) ltac:(intros i Hi; rewrite <- L1; auto) Hs Hlen Hw') as (E1 & E2 & E3 & [E4 E5]). cbn zeta in *.
  split; [exact E3|]. split; [exact E4|]. split; [exact E1|]. intros j o Hj. destruct (E5 j o Hj) as (o' & rows & row & H1 & H2 & H3 & H4). rewrite block_draw, L in H2. exists o', rows, row. cbn [Nat.add] in *. auto.
Qed.
Print Assumptions noise_episode.
(** For the examples: the b-th draw of generator g consists of rows of the number g + b. *)
Definition count (len k : nat) (g : nat) : call nat (list (list R)) := (Datatypes.S g, Ok (repeat (repeat (INR g) k) len)).
Example noise_episode_example :
  let m := still ["omega"; "i"] [1; 1] [1/2; 1/4] (SBox 1) None in aligned 2 (m_info m) /\ sized 2 m /\
  (forall g, exists g' rows, count 2 1 g = (g', Ok rows) /\ length rows = 2%nat /\ forall row, In row rows -> length row = 1%nat) /\
  exists M, noise_machine (fun q : nat => (q, Datatypes.S q)) count (StList ["i"]) 2 m = Ok M /\
    snd (episode M [ABox []; ABox []; ABox []] {| no_ptr := 0; no_rows := None; no_gen := O; no_seq := 5%nat; no_in := tt |}) =
      ([[1/2; 1/4 + INR 5]; [1/2; 1/4 + INR 5]; [1/2; 1/4 + INR 6]; [1/2; 1/4 + INR 6]], None).
Proof.
  split; [apply (still_aligned ["omega"; "i"]); [nodup|reflexivity]|]. split; [apply (still_sized ["omega"; "i"]); reflexivity|]. split.
  - intros g. do 2 eexists. split; [reflexivity|]. split; [reflexivity|]. cbn. intros row [<-|[<-|[]]]; reflexivity.
  - eexists. split; [reflexivity|]. unfold episode. cbn [m_reset noise_reset]. reflexivity.
Qed.

(** The documented shortcut 'all' does not select all states: its letters are looked up. *)
Theorem noise_all_refuted :
  forall S G Q (spawn : Q -> G * Q) draw n len (m : machine S), aligned n (m_info m) -> ~ In "a" (i_names (m_info m)) ->
  noise_machine spawn draw (StStr "all") len m = Err KeyError.
Proof.
  intros S G Q spawn draw n len m (L1 & L2 & L3 & L4 & L5 & Hn & Hp) Hi. unfold noise_machine. cbn [chars dict_items]. unfold dict_item. destruct (dict_get "a" (i_pos (m_info m))) as [j|] eqn:E; [|reflexivity].
  exfalso. apply Hi. eapply nth_error_In, Hp, E.
Qed.
Print Assumptions noise_all_refuted.
Example noise_all_example : ~ In "a" (i_names (m_info (still ["omega"; "i_a"] [1; 1] [1/2; 1/4] (SBox 1) None))).
Proof. cbn. intros [E|[E|[]]]; discriminate. Qed.

(** [seed] does not reach the wrapper's own random numbers: its sequence stays as it was,
    so two equally seeded systems can show different episodes. *)
Theorem noise_seeded_refuted :
  (forall S G Q f (x : noise S G Q), no_seq (noise_seed f x) = no_seq x /\ no_in (noise_seed f x) = f (no_in x)) /\
  exists (m : machine unit) (f : unit -> unit) M (x1 x2 : noise unit nat nat),
    noise_machine (fun q : nat => (q, Datatypes.S q)) count (StList ["i"]) 2 m = Ok M /\ no_in (noise_seed f x1) = no_in (noise_seed f x2) /\ snd (episode M [] (noise_seed f x1)) <> snd (episode M [] (noise_seed f x2)).
Proof.
  split; [split; reflexivity|]. exists (still ["omega"; "i"] [1; 1] [1/2; 1/4] (SBox 1) None), (fun u => u). eexists.
  exists {| no_ptr := 0; no_rows := None; no_gen := O; no_seq := 0%nat; no_in := tt |}, {| no_ptr := 0; no_rows := None; no_gen := O; no_seq := 1%nat; no_in := tt |}.
  split; [reflexivity|]. split; [reflexivity|]. unfold episode. cbn. intros E. injection E as E. lra.
Qed.
Print Assumptions noise_seeded_refuted.

(** The noise leaves the announced range. *)
Theorem noise_in_announced_space_refuted :
  exists (m : machine unit) M x o, aligned 2 (m_info m) /\ sized 2 m /\ noise_machine (fun q : nat => (q, Datatypes.S q)) count (StList ["i"]) 2 m = Ok M /\
    snd (episode M [] x) = ([o], None) /\ exists v, shown (i_names (m_info M)) o "i" = Some v /\ shown (i_names (m_info M)) (i_high (m_info M)) "i" = Some 1 /\ v > 1.
Proof.
  exists (still ["omega"; "i"] [1; 1] [1/2; 1/4] (SBox 1) None). eexists. exists {| no_ptr := 0; no_rows := None; no_gen := O; no_seq := 1%nat; no_in := tt |}. eexists.
  split; [apply (still_aligned ["omega"; "i"]); [nodup|reflexivity]|]. split; [apply (still_sized ["omega"; "i"]); reflexivity|]. split; [reflexivity|]. split; [unfold episode; cbn; reflexivity|]. eexists. split; [reflexivity|]. split; [reflexivity|]. lra.
Qed.
Print Assumptions noise_in_announced_space_refuted.

(** Wrong use: no rows at once, and a step before the first reset. *)
Theorem noise_wrong_use :
  forall S G Q (spawn : Q -> G * Q) draw n ks (m : machine S), aligned n (m_info m) -> sized n m ->
  (forall g, exists g', draw 0%nat (length ks) g = (g', Ok [])) ->
  (forall M x acts s o, noise_machine spawn draw (StList ks) 0 m = Ok M -> m_reset m (no_in x) = (s, Ok o) -> snd (episode M acts x) = ([], Some IndexError)) /\
  (forall len M x a s o, (0 < len)%nat -> noise_machine spawn draw (StList ks) len m = Ok M -> no_ptr x = O -> no_rows x = None -> m_sim m a (no_in x) = (s, Ok o) -> snd (m_sim M a x) = Err TypeError).
Proof.
  intros S G Q spawn draw n ks m Ha Hs Hd. destruct Ha as (L1 & L2 & L3 & L4 & L5 & Hn & Hp). split.
  - intros M x acts s o H Hr. unfold noise_machine in H. destruct (dict_items ks (i_pos (m_info m))) as [idx|] eqn:E; [|discriminate]. cbn [bind] in H. apply Ok_inj in H. subst M. destruct (dict_items_inv _ _ _ _ Hp E) as (L & GG & B).
    unfold episode. cbn [m_reset]. unfold noise_reset. destruct (spawn (no_seq x)) as [g q]. rewrite Hr. unfold new_noise. cbn [no_gen]. rewrite L. destruct (Hd g) as [g' ->]. unfold add_noise. cbn [no_rows no_ptr]. destruct (select_ok idx o) as (r & -> & _); [intros i Hi; rewrite (proj1 Hs _ _ _ Hr), <- L1; auto|]. reflexivity.
  - intros len M x a s o Hlen H Hptr Hrows Hm. unfold noise_machine in H. destruct (dict_items ks (i_pos (m_info m))) as [idx|] eqn:E; [|discriminate]. cbn [bind] in H. apply Ok_inj in H. subst M. destruct (dict_items_inv _ _ _ _ Hp E) as (L & GG & B).
    cbn [m_sim]. unfold noise_sim. rewrite Hptr. destruct (Nat.leb_spec len 0); [lia|]. rewrite Hm. unfold add_noise. cbn [no_rows]. rewrite Hrows. destruct (select_ok idx o) as (r & -> & _); [intros i Hi; rewrite (proj2 Hs _ _ _ _ Hm), <- L1; auto|]. reflexivity.
Qed.
Print Assumptions noise_wrong_use.
Example noise_wrong_use_example : (forall g, exists g', count 0 1 g = (g', Ok [])) /\ exists M, noise_machine (fun q : nat => (q, Datatypes.S q)) count (StList ["i"]) 0 (still ["omega"; "i"] [1; 1] [1/2; 1/4] (SBox 1) None) = Ok M.
Proof. split; [intros g; eexists; reflexivity|]. eexists. reflexivity. Qed.
