From Verif Require Import PyBase PyBaseFacts PyDict PyDictFacts Utils_Model Utils_Proofs Transform_Model Motor_Model MotorLimit_Model MotorLimit_Spec.

Lemma unset_true d k : unset d k = true <-> missing d k.
Proof.
  unfold unset, missing, given. destruct (dict_get k d) as [v|].
  - destruct (reqP v 0) as [E|E]; split; intros H; try discriminate; auto.
    + intros v' [K1 K2]. congruence.
    + exfalso. apply (H v). auto.
  - split; auto. intros _ v [K _]. discriminate.
Qed.
Lemma unset_false d k : unset d k = false <-> exists v, given d k v.
Proof.
  unfold unset, given. destruct (dict_get k d) as [v|].
  - destruct (reqP v 0) as [E|E]; split; intros H; try discriminate; auto.
    + destruct H as [v' [K1 K2]]. congruence.
    + exists v. auto.
  - split; [discriminate|]. intros [v [K _]]. discriminate.
Qed.

(** one pass over an agenda with distinct keys *)
Definition fill_with (g : string * R -> R) (agenda d : dict R) : dict R :=
  fold_left (fun d kv => if unset d (fst kv) then dict_set (fst kv) (g kv) d else d) agenda d.
Lemma fill_limits_with a d : fill_limits d a = fill_with snd a d.
Proof. reflexivity. Qed.
Lemma fill_nominal_with lim nom nd :
  fill_nominal lim nom nd = fill_with (fun kv => match dict_get (fst kv) nd with Some v => v | None => snd kv end) lim nom.
Proof. reflexivity. Qed.

Lemma dict_get_set_same {V} k (v : V) d : dict_get k (dict_set k v d) = Some v.
Proof. rewrite dict_get_set. now rewrite String.eqb_refl. Qed.
Lemma dict_get_set_other {V} k k' (v : V) d : k <> k' -> dict_get k (dict_set k' v d) = dict_get k d.
Proof. intros H. rewrite dict_get_set. destruct (String.eqb_spec k' k) as [E|E]; [congruence|reflexivity]. Qed.

Lemma fill_with_given g a d k v : given d k v -> dict_get k (fill_with g a d) = Some v.
Proof.
  unfold fill_with. revert d. induction a as [|[k' v'] a IH]; intros d [H1 H2]; [exact H1|]. cbn [fold_left fst snd].
  apply IH. destruct (unset d k') eqn:E; [|split; assumption].
  split; [|exact H2]. rewrite dict_get_set_other; [exact H1|]. intros ->.
  apply unset_true in E. apply (E v). split; assumption.
Qed.
Lemma fill_with_notin g a d k : ~ In k (dict_keys a) -> dict_get k (fill_with g a d) = dict_get k d.
Proof.
  unfold fill_with. revert d. induction a as [|[k' v'] a IH]; intros d H; [reflexivity|]. cbn [fold_left fst snd].
  cbn in H. rewrite IH by tauto. destruct (unset d k'); [|reflexivity]. apply dict_get_set_other. intros ->. tauto.
Qed.
Lemma fill_with_missing g a d k v : NoDup (dict_keys a) -> In (k, v) a -> missing d k ->
  dict_get k (fill_with g a d) = Some (g (k, v)).
Proof.
  unfold fill_with. revert d. induction a as [|[k' v'] a IH]; intros d Hn Hin Hm; [contradiction|]. cbn [fold_left fst snd].
  cbn in Hn. inversion Hn as [|? ? Hni Hn']. subst. destruct Hin as [E|Hin].
  - injection E. intros -> ->. apply unset_true in Hm. rewrite Hm.
    fold (fill_with g a (dict_set k (g (k, v)) d)). rewrite fill_with_notin by exact Hni. apply dict_get_set_same.
  - apply IH; [exact Hn'|exact Hin|]. destruct (unset d k'); [|exact Hm].
    assert (k <> k') by (intros ->; apply Hni; now apply (in_map fst) in Hin).
    intros w [W1 W2]. rewrite dict_get_set_other in W1 by assumption. now apply (Hm w).
Qed.
Lemma fill_with_keys g a d k : In k (dict_keys (fill_with g a d)) -> In k (dict_keys d) \/ In k (dict_keys a).
Proof.
  unfold fill_with. revert d. induction a as [|[k' v'] a IH]; intros d H; [now left|]. cbn [fold_left fst snd] in H.
  apply IH in H. destruct H as [H|H]; [|right; now right].
  destruct (unset d k'); [|now left]. apply in_dict_keys_set in H. destruct H as [->|H]; [right; now left|now left].
Qed.
Lemma fill_with_nodup g a d : NoDup (dict_keys d) -> NoDup (dict_keys (fill_with g a d)).
Proof.
  unfold fill_with. revert d. induction a as [|[k' v'] a IH]; intros d H; [exact H|]. cbn [fold_left fst snd].
  apply IH. destruct (unset d k'); [now apply dict_set_nodup|exact H].
Qed.
Lemma fill_with_mono g a d k : In k (dict_keys d) -> In k (dict_keys (fill_with g a d)).
Proof.
  unfold fill_with. revert d. induction a as [|[k' v'] a IH]; intros d H; [exact H|]. cbn [fold_left fst snd].
  apply IH. destruct (unset d k'); [|exact H]. apply in_dict_keys_set. now right.
Qed.
Lemma given_or_missing d k : (exists v, given d k v) \/ missing d k.
Proof. destruct (unset d k) eqn:E; [right; now apply unset_true|left; now apply unset_false]. Qed.

Lemma base_update_limits omega lim nom ld nd : NoDup (dict_keys ld) ->
  forall k, dict_get k (fst (base_update omega lim nom ld nd)) =
    match dict_get k lim with
    | Some v => if req v 0 then match dict_get k (dict_set "omega"%string omega ld) with Some a => Some a | None => Some v end else Some v
    | None => dict_get k (dict_set "omega"%string omega ld)
    end.
Proof.
  intros Hn k. unfold base_update. cbn [fst]. rewrite fill_limits_with. set (a := dict_set _ _ _).
  assert (Ha : NoDup (dict_keys a)) by now apply dict_set_nodup.
  destruct (given_or_missing lim k) as [[v Hv]|Hm].
  - rewrite (fill_with_given _ _ _ _ v Hv). destruct Hv as [-> Hv]. destruct (reqP v 0); congruence.
  - destruct (dict_get k a) as [w|] eqn:Ew.
    + rewrite (fill_with_missing snd a lim k w Ha (dict_get_in _ _ _ Ew) Hm). cbn [snd].
      destruct (dict_get k lim) as [v|] eqn:Ev; [|reflexivity]. destruct (reqP v 0) as [E|E]; [reflexivity|].
      exfalso. apply (Hm v). split; assumption.
    + rewrite fill_with_notin by now apply dict_get_none. destruct (dict_get k lim) as [v|]; [|reflexivity].
      now destruct (reqP v 0).
Qed.
Lemma base_update_nodup omega lim nom ld nd : NoDup (dict_keys lim) -> NoDup (dict_keys (fst (base_update omega lim nom ld nd))).
Proof. intros H. unfold base_update. cbn [fst]. rewrite fill_limits_with. now apply fill_with_nodup. Qed.
Lemma base_update_nominal omega lim nom ld nd : NoDup (dict_keys lim) ->
  let lim' := fst (base_update omega lim nom ld nd) in
  forall k, dict_get k (snd (base_update omega lim nom ld nd)) =
    match dict_get k lim' with
    | None => dict_get k nom
    | Some l => let fallback := Some (match dict_get k nd with Some a => a | None => l end) in
        match dict_get k nom with Some v => if req v 0 then fallback else Some v | None => fallback end
    end.
Proof.
  intros Hn lim' k. assert (Hn' : NoDup (dict_keys lim')) by now apply base_update_nodup.
  unfold base_update in *. cbn [fst snd] in *. fold lim'. rewrite fill_nominal_with.
  destruct (dict_get k lim') as [l|] eqn:El; [|now apply fill_with_notin, dict_get_none].
  destruct (given_or_missing nom k) as [[v Hv]|Hm].
  - rewrite (fill_with_given _ _ _ _ v Hv). destruct Hv as [-> Hv]. destruct (reqP v 0); congruence.
  - rewrite (fill_with_missing _ lim' nom k l Hn' (dict_get_in _ _ _ El) Hm). cbn [fst snd].
    destruct (dict_get k nom) as [v|] eqn:Ev; [|reflexivity]. destruct (reqP v 0) as [E|E]; [reflexivity|].
    exfalso. apply (Hm v). split; assumption.
Qed.

(** The agenda of the three phase motors when the general current is given. *)
Lemma agenda_given lim half r I names : given lim "i"%string I -> forall acc,
  agenda lim half r names acc = Ok (fold_left (fun acc ui => dict_set (snd ui) I (dict_set (fst ui) half acc)) names acc).
Proof.
  intros [H1 H2]. induction names as [|[u i] names IH]; intros acc; [reflexivity|]. cbn [agenda fold_left fst snd].
  rewrite H1. cbn [py_or]. destruct (reqP I 0) as [E|E]; [contradiction|]. cbn [bind]. apply IH.
Qed.
Definition agenda_dict (half I : R) (names : list (string * string)) : dict R :=
  fold_left (fun acc ui => dict_set (snd ui) I (dict_set (fst ui) half acc)) names [].
Lemma agenda_nodup (half I : R) names (acc : dict R) : NoDup (dict_keys acc) ->
  NoDup (dict_keys (fold_left (fun acc ui => dict_set (snd ui) I (dict_set (fst ui) half acc)) names acc)).
Proof. revert acc. induction names as [|[u i] names IH]; intros acc H; [exact H|]. cbn. apply IH. now do 2 apply dict_set_nodup. Qed.
Lemma agenda_get (half I : R) names (acc : dict R) k :
  (forall x, In x (map fst names) -> ~ In x (map snd names)) ->
  dict_get k (fold_left (fun acc ui => dict_set (snd ui) I (dict_set (fst ui) half acc)) names acc) =
  if str_in k (map snd names) then Some I else if str_in k (map fst names) then Some half else dict_get k acc.
Proof.
  intros Hd.
  assert (G : forall l acc, (forall x, In x (map fst l) -> ~ In x (map snd names)) ->
     (forall x, In x (map snd l) -> In x (map snd names)) ->
     dict_get k (fold_left (fun acc ui => dict_set (snd ui) I (dict_set (fst ui) half acc)) l acc) =
     if str_in k (map snd l) then Some I else if str_in k (map fst l) then Some half else dict_get k acc).
  { induction l as [|[u i] l IH]; intros acc0 D1 D2; [reflexivity|]. cbn [fold_left fst snd map] in *.
    rewrite IH; [|intros x Hx; apply D1; now right|intros x Hx; apply D2; now right]. unfold str_in. cbn [existsb].
    fold (str_in k (map snd l)). fold (str_in k (map fst l)).
    destruct (str_in k (map snd l)) eqn:E1; [now rewrite orb_true_r|]. rewrite orb_false_r.
    destruct (str_in k (map fst l)) eqn:E2.
    - rewrite orb_true_r. destruct (String.eqb_spec k i) as [->|Hne]; [|reflexivity].
      exfalso. apply str_in_true in E2. apply (D1 i); [now right|]. apply D2. now left.
    - rewrite orb_false_r, !dict_get_set. rewrite (String.eqb_sym i k), (String.eqb_sym u k).
      destruct (String.eqb k i); [reflexivity|]. now destruct (String.eqb k u). }
  apply G; [exact Hd|auto].
Qed.

Lemma sqrt2 : sqrt 2 * sqrt 2 = 2.
Proof. apply sqrt_sqrt. lra. Qed.
Lemma sqrt2_pos : 0 < sqrt 2.
Proof. apply sqrt_lt_R0. lra. Qed.

(** The stationary point of (psi + a d) q on the circle. *)
Lemma mtpa_max psi a I d0 q0 :
  0 <= psi -> a < 0 -> d0 <= 0 -> 0 < q0 -> d0 * d0 + q0 * q0 = I * I -> a * (q0 * q0) = d0 * (psi + a * d0) ->
  0 < psi + a * d0 ->
  forall d q, d * d + q * q <= I * I -> (psi + a * d) * q <= (psi + a * d0) * q0.
Proof.
  intros Hpsi Ha Hd0 Hq0 Hc Hst HA d q Hin.
  assert (pos : forall d q, 0 <= q -> d * d + q * q <= I * I -> (psi + a * d) * q <= (psi + a * d0) * q0).
  { clear d q Hin. intros d q Hq Hin. set (A := psi + a * d0) in *.
    assert (E : (psi + a * d) * (q0 * q0) = A * (q0 * q0 + d0 * (d - d0))).
    { replace (psi + a * d) with (A + a * (d - d0)) by (unfold A; ring).
      rewrite Rmult_plus_distr_r. replace (a * (d - d0) * (q0 * q0)) with (a * (q0 * q0) * (d - d0)) by ring.
      rewrite Hst. ring. }
    assert (B : (q0 * q0 + d0 * (d - d0)) * q <= q0 * q0 * q0).
    { assert (B1 : q0 * q0 + d0 * (d - d0) <= (3 * (q0 * q0) - q * q) / 2).
      { assert (0 <= (d0 - d) * (d0 - d)) by apply Rle_0_sqr. nra. }
      apply Rle_trans with ((3 * (q0 * q0) - q * q) / 2 * q); [apply Rmult_le_compat_r; assumption|].
      assert (0 <= (q - q0) * (q - q0) * (q + 2 * q0)) by (apply Rmult_le_pos; [apply Rle_0_sqr|lra]). nra. }
    apply Rmult_le_reg_r with (q0 * q0); [nra|].
    replace ((psi + a * d) * q * (q0 * q0)) with ((psi + a * d) * (q0 * q0) * q) by ring. rewrite E.
    replace (A * q0 * (q0 * q0)) with (A * (q0 * q0 * q0)) by ring. rewrite Rmult_assoc.
    apply Rmult_le_compat_l; [lra|exact B]. }
  destruct (Rle_or_lt 0 q) as [Hq|Hq]; [now apply pos|].
  destruct (Rle_or_lt (psi + a * d) 0) as [Hs|Hs].
  - apply Rle_trans with ((psi + a * (- d)) * (- q)); [nra|]. apply pos; [lra|]. replace (- d * - d + - q * - q) with (d * d + q * q) by ring. exact Hin.
  - assert (0 < (psi + a * d0) * q0) by now apply Rmult_lt_0_compat. nra.
Qed.
(** The chosen root is such a stationary point. *)
Lemma mtpa_root psi a I : 0 <= psi -> a < 0 -> 0 < I ->
  let p := psi / (2 * a) in let s := sqrt (p / 2 * (p / 2) - - (I * I) / 2) in let d0 := - p / 2 - s in
  0 <= p / 2 * (p / 2) - - (I * I) / 2 /\ d0 <= 0 /\ d0 * d0 < I * I /\
  a * (I * I - d0 * d0) = d0 * (psi + a * d0) /\ 0 < psi + a * d0.
Proof.
  intros Hpsi Ha HI p s d0. assert (Hp : p <= 0).
  { unfold p, Rdiv. assert (/ (2 * a) < 0) by (apply Rinv_lt_0_compat; lra). nra. }
  set (D := p / 2 * (p / 2) - - (I * I) / 2). assert (HII : 0 < I * I) by nra.
  assert (HD : p / 2 * (p / 2) < D) by (unfold D; lra). assert (HD0 : 0 <= D) by (pose proof (Rle_0_sqr (p / 2)) as Q; unfold Rsqr in Q; lra).
  pose proof (sqrt_sqrt D HD0) as HS. pose proof (sqrt_pos D) as HP. fold D in s. fold s in HS, HP.
  assert (Hs1 : - p / 2 < s).
  { destruct (Rlt_or_le (- p / 2) s) as [L|L]; [exact L|]. assert (s * s <= p / 2 * (p / 2)) by nra. lra. }
  assert (Epsi : psi = 2 * a * p) by (unfold p; field; lra).
  assert (Eq : d0 * d0 + p * d0 - I * I / 2 = 0).
  { unfold d0. replace ((- p / 2 - s) * (- p / 2 - s) + p * (- p / 2 - s) - I * I / 2) with (s * s - p / 2 * (p / 2) - I * I / 2) by field.
    rewrite HS. unfold D. field. }
  split; [exact HD0|]. split; [unfold d0; lra|]. split; [|split].
  - assert (d0 < 0) by (unfold d0; lra). assert (s < I - p / 2).
    { destruct (Rlt_or_le s (I - p / 2)) as [L|L]; [exact L|]. assert ((I - p / 2) * (I - p / 2) <= s * s) by nra. rewrite HS in H0. unfold D in H0. nra. }
    assert (- I < d0) by (unfold d0; lra). nra.
  - rewrite Epsi. nra.
  - rewrite Epsi. assert (d0 + 2 * p < 0) by (unfold d0; lra). nra.
Qed.

(** Result of [tp_update] for a given general current and voltage. *)
Definition after_agenda (omega ul Il : R) (names : list (string * string)) (limits : dict R) (k : string) : option R :=
  match dict_get k limits with
  | Some v => if req v 0 then match dict_get k (dict_set "omega"%string omega (agenda_dict (1 / 2 * ul) Il names)) with Some a => Some a | None => Some v end else Some v
  | None => dict_get k (dict_set "omega"%string omega (agenda_dict (1 / 2 * ul) Il names))
  end.
Definition names_ok (names : list (string * string)) : Prop :=
  (forall x, In x (map fst names) -> ~ In x (map snd names)) /\
  ~ In "torque"%string (map fst names ++ map snd names) /\ ~ In "omega"%string (map fst names ++ map snd names).

Lemma agenda_dict_get half I names k : names_ok names ->
  dict_get k (agenda_dict half I names) =
  if str_in k (map snd names) then Some I else if str_in k (map fst names) then Some half else None.
Proof. intros [H _]. unfold agenda_dict. now rewrite agenda_get. Qed.
Lemma agenda_dict_nodup half I names : NoDup (dict_keys (agenda_dict half I names)).
Proof. apply agenda_nodup. constructor. Qed.

(** Two passes; values of the phase quantities. *)
Lemma tp_update_values omega r names tlimit limits nominal ul un Il Inn res :
  NoDup (dict_keys limits) -> names_ok names ->
  given limits "i"%string Il -> given nominal "i"%string Inn -> given limits "u"%string ul -> given nominal "u"%string un ->
  tp_update omega r names tlimit limits nominal = Ok res ->
  (forall k v, given limits k v -> dict_get k (tp_lim res) = Some v) /\
  (forall k v, given nominal k v -> dict_get k (tp_nom res) = Some v) /\
  (forall u i, In (u, i) names ->
     (missing limits u -> dict_get u (tp_lim res) = Some (ul / 2)) /\ (missing limits i -> dict_get i (tp_lim res) = Some Il) /\
     (missing nominal u -> dict_get u (tp_nom res) = Some (un / 2)) /\ (missing nominal i -> dict_get i (tp_nom res) = Some Inn)) /\
  (forall k, In k (dict_keys (tp_lim res)) -> In k (dict_keys (tp_nom res))).
Proof.
  intros Hnd Hok HIl HIn Hul Hun E. unfold tp_update in E.
  assert (Eu : dict_item "u"%string limits = Ok ul) by (unfold dict_item; destruct Hul as [-> _]; reflexivity).
  assert (Eun : dict_item "u"%string nominal = Ok un) by (unfold dict_item; destruct Hun as [-> _]; reflexivity).
  rewrite Eu, Eun in E. cbn [bind] in E.
  rewrite (agenda_given limits _ r Il names HIl), (agenda_given nominal _ r Inn names HIn) in E. cbn [bind] in E.
  fold (agenda_dict (1 / 2 * ul) Il names) in E. fold (agenda_dict (1 / 2 * un) Inn names) in E.
  set (la := agenda_dict (1 / 2 * ul) Il names) in *. set (na := agenda_dict (1 / 2 * un) Inn names) in *.
  pose proof (base_update_limits omega limits nominal la na (agenda_dict_nodup _ _ _)) as BL.
  pose proof (base_update_nominal omega limits nominal la na Hnd) as BN. cbv zeta in BN.
  pose proof (base_update_nodup omega limits nominal la na Hnd) as BD.
  destruct (base_update omega limits nominal la na) as [lim nom] eqn:Eb. cbn [fst snd] in BL, BN, BD.
  (* values after the first pass *)
  assert (G1 : forall k v, given limits k v -> given lim k v).
  { intros k v [K1 K2]. split; [|exact K2]. rewrite BL, K1. destruct (reqP v 0); [contradiction|reflexivity]. }
  assert (G2 : forall k v, given nominal k v -> given nom k v).
  { intros k v [K1 K2]. split; [|exact K2]. rewrite BN. destruct (dict_get k lim); rewrite K1; [|reflexivity].
    destruct (reqP v 0); [contradiction|reflexivity]. }
  assert (AG : forall half I u i, In (u, i) names -> dict_get u (agenda_dict half I names) = Some half /\ dict_get i (agenda_dict half I names) = Some I /\
             u <> "omega"%string /\ i <> "omega"%string /\ u <> "torque"%string /\ i <> "torque"%string).
  { intros half I u i Hin. destruct Hok as (O1 & O2 & O3).
    assert (Mu : In u (map fst names)) by (apply in_map_iff; now exists (u, i)).
    assert (Mi : In i (map snd names)) by (apply in_map_iff; now exists (u, i)).
    rewrite !agenda_dict_get by (split; [assumption|split; assumption]).
    rewrite (proj2 (str_in_true i _) Mi), (proj2 (str_in_true u _) Mu), (proj2 (str_in_false u (map snd names)) (O1 u Mu)).
    repeat split; intros ->; first
      [apply O2; apply in_or_app; solve [left; assumption | right; assumption]
      |apply O3; apply in_or_app; solve [left; assumption | right; assumption]]. }
  assert (L1 : forall u i, In (u, i) names -> (missing limits u -> dict_get u lim = Some (ul / 2)) /\ (missing limits i -> dict_get i lim = Some Il)).
  { intros u i Hin. destruct (AG (1 / 2 * ul) Il u i Hin) as (A1 & A2 & A3 & A4 & _).
    split; intros Hm; rewrite BL, dict_get_set_other by assumption; fold la in A1, A2; rewrite ?A1, ?A2.
    - destruct (dict_get u limits) as [v|] eqn:Ev.
      + destruct (reqP v 0) as [Z|Z]; [f_equal; field|]. exfalso. apply (Hm v). split; assumption.
      + f_equal; field.
    - destruct (dict_get i limits) as [v|] eqn:Ev; [|reflexivity].
      destruct (reqP v 0) as [Z|Z]; [reflexivity|]. exfalso. apply (Hm v). split; assumption. }
  assert (InLim : forall u i, In (u, i) names -> dict_get u lim <> None /\ dict_get i lim <> None).
  { intros u i Hin. destruct (L1 u i Hin) as [M1 M2]. split.
    - destruct (given_or_missing limits u) as [[v Hv]|Hm]; [destruct (G1 u v Hv) as [-> _]|rewrite (M1 Hm)]; discriminate.
    - destruct (given_or_missing limits i) as [[v Hv]|Hm]; [destruct (G1 i v Hv) as [-> _]|rewrite (M2 Hm)]; discriminate. }
  assert (N1 : forall u i, In (u, i) names -> (missing nominal u -> given nom u (un / 2)) /\ (missing nominal i -> given nom i Inn)).
  { intros u i Hin. destruct (AG (1 / 2 * un) Inn u i Hin) as (A1 & A2 & A3 & A4 & _). fold na in A1, A2.
    destruct (InLim u i Hin) as [I1 I2]. split; intros Hm; (split; [rewrite BN|]).
    - destruct (dict_get u lim) as [l|]; [|contradiction]. rewrite A1. destruct (dict_get u nominal) as [v|] eqn:Ev.
      + destruct (reqP v 0) as [Z|Z]; [f_equal; field|]. exfalso. apply (Hm v). split; assumption.
      + f_equal; field.
    - destruct Hun as [_ Hun]. lra.
    - destruct (dict_get i lim) as [l|]; [|contradiction]. rewrite A2. destruct (dict_get i nominal) as [v|] eqn:Ev; [|reflexivity].
      destruct (reqP v 0) as [Z|Z]; [reflexivity|]. exfalso. apply (Hm v). split; assumption.
    - exact (proj2 HIn). }
  assert (K1 : forall k, In k (dict_keys lim) -> In k (dict_keys nom)).
  { intros k Hk. apply dict_get_some_iff in Hk. destruct Hk as [l El]. apply dict_get_some_iff. rewrite BN, El.
    destruct (dict_get k nominal) as [v|]; [destruct (req v 0)|]; eauto. }
  destruct (tlimit lim nom) as [[tq|]|e] eqn:Et; cbn [bind] in E; [| |discriminate].
  - assert (ND : NoDup (dict_keys [("torque"%string, tq)])) by (constructor; [intros []|constructor]).
    pose proof (base_update_limits omega lim nom [("torque"%string, tq)] [] ND) as CL.
    pose proof (base_update_nominal omega lim nom [("torque"%string, tq)] [] BD) as CN. cbv zeta in CN.
    destruct (base_update omega lim nom [("torque"%string, tq)] []) as [lim2 nom2]. cbn [fst snd] in CL, CN.
    injection E. intros <-. cbn [tp_lim tp_nom].
    assert (H1 : forall k v, given lim k v -> dict_get k lim2 = Some v).
    { intros k v [P1 P2]. rewrite CL, P1. destruct (reqP v 0); [contradiction|reflexivity]. }
    assert (H2 : forall k v, given nom k v -> dict_get k nom2 = Some v).
    { intros k v [P1 P2]. rewrite CN. destruct (dict_get k lim2); rewrite P1; [|reflexivity]. destruct (reqP v 0); [contradiction|reflexivity]. }
    assert (H3 : forall k v, k <> "omega"%string -> k <> "torque"%string -> dict_get k lim = Some v -> dict_get k lim2 = Some v).
    { intros k v P1 P2 P3. rewrite CL, P3. destruct (req v 0); [|reflexivity]. rewrite dict_get_set_other by exact P1.
      cbn [dict_get]. destruct (String.eqb_spec "torque"%string k); [congruence|reflexivity]. }
    split; [intros k v Hg; apply H1, G1, Hg|]. split; [intros k v Hg; apply H2, G2, Hg|]. split.
    + intros u i Hin. destruct (L1 u i Hin) as [M1 M2]. destruct (N1 u i Hin) as [O1 O2].
      destruct (AG 0 0 u i Hin) as (_ & _ & A3 & A4 & A5 & A6).
      repeat split; intros Hm; [apply H3; auto|apply H3; auto|apply H2; auto|apply H2; auto].
    + intros k Hk. apply dict_get_some_iff in Hk. destruct Hk as [l El]. apply dict_get_some_iff. rewrite CN, El.
      destruct (dict_get k nom) as [v|]; [destruct (req v 0)|]; eauto.
  - injection E. intros <-. cbn [tp_lim tp_nom].
    split; [intros k v Hg; exact (proj1 (G1 k v Hg))|]. split; [intros k v Hg; exact (proj1 (G2 k v Hg))|]. split; [|exact K1].
    intros u i Hin. destruct (L1 u i Hin) as [M1 M2]. destruct (N1 u i Hin) as [O1 O2]. repeat split; auto.
    + intros Hm. exact (proj1 (O1 Hm)).
    + intros Hm. exact (proj1 (O2 Hm)).
Qed.

(** The torque entry is what [_torque_limit] returns for the completed dictionaries. *)
Lemma tp_update_torque omega r names tlimit limits nominal ul un Il Inn res :
  NoDup (dict_keys limits) -> names_ok names -> ~ In "i"%string (map fst names ++ map snd names) ->
  given limits "i"%string Il -> given nominal "i"%string Inn -> given limits "u"%string ul -> given nominal "u"%string un ->
  missing limits "torque"%string -> missing nominal "torque"%string ->
  tp_update omega r names tlimit limits nominal = Ok res ->
  exists lim nom t, tlimit lim nom = Ok t /\ tp_nan res = (match t with None => true | Some _ => false end) /\
    dict_get "i"%string nom = Some Inn /\ (forall k v, given limits k v -> dict_get k lim = Some v) /\
    (forall u i, In (u, i) names -> missing limits i -> dict_get i lim = Some Il) /\
    (forall tq, t = Some tq -> dict_get "torque"%string (tp_lim res) = Some tq /\ dict_get "torque"%string (tp_nom res) = Some tq).
Proof.
  intros Hnd Hok Hi HIl HIn Hul Hun Htl Htn E. unfold tp_update in E.
  assert (Eu : dict_item "u"%string limits = Ok ul) by (unfold dict_item; destruct Hul as [-> _]; reflexivity).
  assert (Eun : dict_item "u"%string nominal = Ok un) by (unfold dict_item; destruct Hun as [-> _]; reflexivity).
  rewrite Eu, Eun in E. cbn [bind] in E.
  rewrite (agenda_given limits _ r Il names HIl), (agenda_given nominal _ r Inn names HIn) in E. cbn [bind] in E.
  fold (agenda_dict (1 / 2 * ul) Il names) in E. fold (agenda_dict (1 / 2 * un) Inn names) in E.
  pose proof (base_update_limits omega limits nominal (agenda_dict (1 / 2 * ul) Il names) (agenda_dict (1 / 2 * un) Inn names) (agenda_dict_nodup _ _ _)) as BL.
  pose proof (base_update_nominal omega limits nominal (agenda_dict (1 / 2 * ul) Il names) (agenda_dict (1 / 2 * un) Inn names) Hnd) as BN. cbv zeta in BN.
  pose proof (base_update_nodup omega limits nominal (agenda_dict (1 / 2 * ul) Il names) (agenda_dict (1 / 2 * un) Inn names) Hnd) as BD.
  destruct (base_update omega limits nominal _ _) as [lim nom] eqn:Eb. cbn [fst snd] in BL, BN, BD.
  assert (NA : forall half I k, ~ In k (map fst names ++ map snd names) -> dict_get k (agenda_dict half I names) = None).
  { intros half I k Hk. rewrite agenda_dict_get by exact Hok.
    rewrite (proj2 (str_in_false k (map snd names))), (proj2 (str_in_false k (map fst names))); [reflexivity| |];
      intros K; apply Hk, in_or_app; auto. }
  assert (ET : dict_get "torque"%string lim = dict_get "torque"%string limits).
  { rewrite BL, dict_get_set_other by discriminate. rewrite NA by exact (proj1 (proj2 Hok)).
    destruct (dict_get "torque"%string limits) as [v|]; [|reflexivity]. now destruct (req v 0). }
  assert (EL : missing lim "torque"%string).
  { intros v [V1 V2]. rewrite ET in V1. apply (Htl v). split; assumption. }
  destruct (tlimit lim nom) as [t|e] eqn:Et; [|discriminate]. cbn [bind] in E.
  exists lim, nom, t. split; [exact Et|].
  assert (EI : dict_get "i"%string nom = Some Inn).
  { rewrite BN. destruct (dict_get "i"%string lim); destruct HIn as [-> HIn]; [|reflexivity]. destruct (reqP Inn 0); [contradiction|reflexivity]. }
  assert (EG : forall k v, given limits k v -> dict_get k lim = Some v).
  { intros k v [K1 K2]. rewrite BL, K1. destruct (reqP v 0); [contradiction|reflexivity]. }
  assert (EC : forall u i, In (u, i) names -> missing limits i -> dict_get i lim = Some Il).
  { intros u i Hin Hm. assert (Mi : In i (map snd names)) by (apply in_map_iff; now exists (u, i)).
    rewrite BL, dict_get_set_other by (intros ->; apply (proj2 (proj2 Hok)), in_or_app; auto).
    rewrite agenda_dict_get by exact Hok. rewrite (proj2 (str_in_true i _) Mi).
    destruct (dict_get i limits) as [v|] eqn:Ev; [|reflexivity].
    destruct (reqP v 0) as [Z|Z]; [reflexivity|]. exfalso. apply (Hm v). split; assumption. }
  destruct t as [tq|].
  - assert (ND : NoDup (dict_keys [("torque"%string, tq)])) by (constructor; [intros []|constructor]).
    pose proof (base_update_limits omega lim nom [("torque"%string, tq)] [] ND) as CL.
    pose proof (base_update_nominal omega lim nom [("torque"%string, tq)] [] BD) as CN. cbv zeta in CN.
    destruct (base_update omega lim nom [("torque"%string, tq)] []) as [lim2 nom2]. cbn [fst snd] in CL, CN.
    injection E. intros <-. cbn [tp_lim tp_nom tp_nan]. split; [reflexivity|]. split; [exact EI|]. split; [exact EG|]. split; [exact EC|].
    intros tq' K. injection K. intros <-. split.
    + rewrite CL, dict_get_set_other by discriminate. cbn.
      destruct (dict_get "torque"%string lim) as [v|] eqn:Ev; [|reflexivity].
      destruct (reqP v 0) as [Z|Z]; [reflexivity|]. exfalso. apply (EL v). split; assumption.
    + assert (EL2 : dict_get "torque"%string lim2 = Some tq).
      { rewrite CL, dict_get_set_other by discriminate. cbn.
        destruct (dict_get "torque"%string lim) as [v|] eqn:Ev; [|reflexivity].
        destruct (reqP v 0) as [Z|Z]; [reflexivity|]. exfalso. apply (EL v). split; assumption. }
      rewrite CN, EL2. cbn [dict_get].
      assert (ENt : forall v, dict_get "torque"%string nom = Some v -> v = 0).
      { intros v Ev. rewrite BN, ET in Ev. destruct (dict_get "torque"%string limits) as [l|] eqn:El.
        - rewrite NA in Ev by exact (proj1 (proj2 Hok)).
          assert (l = 0) by (destruct (Req_dec l 0); [assumption|exfalso; apply (Htl l); split; assumption]).
          destruct (dict_get "torque"%string nominal) as [n|] eqn:En; [|congruence].
          destruct (reqP n 0) as [Z|Z]; [congruence|]. exfalso. apply (Htn n). split; assumption.
        - destruct (Req_dec v 0); [assumption|]. exfalso. apply (Htn v). split; assumption. }
      destruct (dict_get "torque"%string nom) as [v|]; [|reflexivity]. rewrite (ENt v eq_refl).
      destruct (reqP 0 0); [reflexivity|contradiction].
  - injection E. intros <-. cbn [tp_lim tp_nom tp_nan]. split; [now apply unset_true|].
    split; [exact EI|]. split; [exact EG|]. split; [exact EC|]. discriminate.
Qed.

(** Values of a merged dictionary. *)
Definition chosen (default user : dict R) (k : string) : option R :=
  match dict_get k user with Some v => Some v | None => dict_get k default end.
Lemma merged_spec d u lim : NoDup (dict_keys u) -> NoDup (dict_keys d) -> merged d u = Ok lim ->
  (forall k, In k (dict_keys u) -> In k (dict_keys d)) /\
  NoDup (dict_keys lim) /\ forall k, dict_get k lim = chosen d u k.
Proof.
  intros Hu Hd E. unfold merged in E. destruct (update_dict_spec d u true Hu) as [(K & _)|(A & new & N1 & N2 & N3 & N4)]; [congruence|].
  rewrite N1 in E. injection E. intros <-. split; [exact A|]. split; [now rewrite N3|exact N4].
Qed.
Lemma merged_ok d u : NoDup (dict_keys u) -> (forall k, In k (dict_keys u) -> In k (dict_keys d)) -> exists lim, merged d u = Ok lim.
Proof.
  intros Hu A. unfold merged. destruct (update_dict_spec d u true Hu) as [(K & K2 & k & K3 & K4)|(_ & new & N1 & _)]; [|eauto].
  exfalso. auto.
Qed.
Lemma merged_refuses d u : NoDup (dict_keys u) -> forall k, In k (dict_keys u) -> ~ In k (dict_keys d) -> merged d u = Err KeyError.
Proof.
  intros Hu k K1 K2. unfold merged. destruct (update_dict_spec d u true Hu) as [(K & _)|(A & _)]; [exact K|]. exfalso. auto.
Qed.
