(** Proofs about the shared name lists. *)
From Verif Require Import PyBase PyBaseFacts PyDict PyDictFacts Utils_Model Utils_Proofs Transform_Model Motor_Model
  MotorLimit_Model MotorLimit_Spec MotorLimit_Proofs MotorLimit_Props MotorClass_Model MotorClass_Spec.
Local Open Scope string_scope.
Local Open Scope list_scope.
Local Open Scope R_scope.

Definition w_ok (n : nat) (w : world) : Prop :=
  w_cls_u w = 0%nat /\ w_cls_i w = 1%nat /\
  w_heap w = [scim_io_voltages ++ times n io_rotor_voltages; scim_io_currents ++ times n io_rotor_currents] /\
  (forall o, In o (w_objs w) -> match mo_kind o with
     | Scim => mo_u o = None /\ mo_i o = None | Dfim => mo_u o = Some 0%nat /\ mo_i o = Some 1%nat end).
Lemma times_snoc {A} n (l : list A) : times n l ++ l = times (S n) l.
Proof. induction n as [|n IH]; cbn [times]; [now rewrite app_nil_r|]. rewrite <- app_assoc, IH. reflexivity. Qed.
Lemma w_init_ok : w_ok 0 w_init.
Proof. split; [reflexivity|]. split; [reflexivity|]. split; [|intros o []]. cbn [times]. now rewrite !app_nil_r. Qed.
Lemma dfim_world n w : w_ok n w ->
  w_ok (S n) (extend_list (w_cls_i w) io_rotor_currents (extend_list (w_cls_u w) io_rotor_voltages w)).
Proof.
  intros (H1 & H2 & H3 & H4). rewrite H1, H2. split; [exact H1|]. split; [exact H2|]. split; [|exact H4].
  unfold extend_list. cbn [w_heap]. unfold deref. cbn [w_heap]. rewrite H3. cbn [nth list_set].
  now rewrite <- !app_assoc, !times_snoc.
Qed.
Lemma w_step_ok n w o : w_ok n w -> w_ok (if is_dfim o then S n else n) (fst (w_step w o)).
Proof.
  intros H. destruct o as [m ul un|m ul un]; cbn [w_step is_dfim].
  - unfold new_scim. cbv zeta. destruct (scim_with _ _ m ul un) as [l|e]; [|exact H]. cbn [fst].
    destruct H as (H1 & H2 & H3 & H4). repeat split; try assumption. intros o Ho. cbn [add_obj w_objs] in Ho.
    apply in_app_or in Ho. destruct Ho as [Ho|[<-|[]]]; [exact (H4 o Ho)|]. split; reflexivity.
  - pose proof (dfim_world n w H) as K. pose proof H as (C1 & C2 & _). unfold new_dfim. cbv zeta.
    change (w_cls_i (extend_list (w_cls_u w) io_rotor_voltages w)) with (w_cls_i w).
    destruct (dfim_with _ _ m ul un) as [l|e]; [|exact K]. cbn [fst].
    destruct K as (H1 & H2 & H3 & H4). repeat split; try assumption. intros o Ho. cbn [add_obj w_objs] in Ho.
    apply in_app_or in Ho. destruct Ho as [Ho|[<-|[]]]; [exact (H4 o Ho)|]. cbn. now rewrite C1, C2.
Qed.
Lemma w_run_ok l : forall n w, w_ok n w -> w_ok (n + dfims l) (w_run w l).
Proof.
  induction l as [|o l IH]; intros n w H; [unfold dfims; cbn; now rewrite Nat.add_0_r|].
  cbn [w_run]. pose proof (IH _ _ (w_step_ok n w o H)) as K. unfold dfims in *. cbn [filter].
  destruct (is_dfim o); cbn [length]; [now rewrite Nat.add_succ_r|exact K].
Qed.
Lemma w_ok_lists n w : w_ok n w -> deref w (w_cls_u w) = scim_io_voltages ++ times n io_rotor_voltages /\
  deref w (w_cls_i w) = scim_io_currents ++ times n io_rotor_currents.
Proof. intros (H1 & H2 & H3 & _). unfold deref. now rewrite H1, H2, H3. Qed.

Lemma combine_app {A B} (a1 a2 : list A) (b1 b2 : list B) : length a1 = length b1 ->
  combine (a1 ++ a2) (b1 ++ b2) = combine a1 b1 ++ combine a2 b2.
Proof. revert b1. induction a1 as [|a a1 IH]; intros [|b b1] H; try discriminate H; [reflexivity|]. cbn. f_equal. apply IH. now injection H. Qed.
Lemma combine_times {A B} n (a : list A) (b : list B) : length a = length b -> combine (times n a) (times n b) = times n (combine a b).
Proof. intros H. induction n as [|n IH]; [reflexivity|]. cbn [times]. now rewrite combine_app, IH. Qed.
Lemma times_length {A B} n (a : list A) (b : list B) : length a = length b -> length (times n a) = length (times n b).
Proof. intros H. induction n as [|n IH]; [reflexivity|]. cbn [times]. now rewrite !app_length, IH, H. Qed.

Definition stator_pairs := combine scim_io_voltages scim_io_currents.
Definition rotor_pairs := combine io_rotor_voltages io_rotor_currents.
Definition ralpha_pairs := combine rotor_voltages rotor_currents.

(** putting the same pairs again changes nothing *)
Definition put_pair (half I : R) (acc : dict R) (ui : string * string) : dict R := dict_set (snd ui) I (dict_set (fst ui) half acc).
Lemma dict_set_noop {V} k (v : V) d : dict_get k d = Some v -> dict_set k v d = d.
Proof.
  induction d as [|[k' v'] d IH]; [discriminate|]. cbn [dict_get dict_set]. destruct (String.eqb_spec k' k) as [->|Hne].
  - intros E. injection E. intros ->. reflexivity.
  - intros E. now rewrite IH.
Qed.
Lemma put_again half I l d : (forall ui, In ui l -> dict_get (fst ui) d = Some half /\ dict_get (snd ui) d = Some I) ->
  fold_left (put_pair half I) l d = d.
Proof.
  induction l as [|ui l IH]; intros H; [reflexivity|]. cbn [fold_left]. unfold put_pair at 2.
  destruct (H ui (or_introl eq_refl)) as [H1 H2]. rewrite (dict_set_noop (fst ui)) by exact H1. rewrite dict_set_noop by exact H2.
  apply IH. intros x Hx. apply H. now right.
Qed.
Lemma put_times half I l d : (forall ui, In ui l -> dict_get (fst ui) d = Some half /\ dict_get (snd ui) d = Some I) ->
  forall n, fold_left (put_pair half I) (times n l) d = d.
Proof. intros H. induction n as [|n IH]; [reflexivity|]. cbn [times]. rewrite fold_left_app, (put_again half I l d H). exact IH. Qed.

Lemma agenda_rotor half I n acc :
  fold_left (put_pair half I) (times (S n) rotor_pairs) acc = fold_left (put_pair half I) rotor_pairs acc.
Proof.
  cbn [times]. rewrite fold_left_app. apply put_times. intros ui Hui.
  assert (D : forall x, In x (map fst rotor_pairs) -> ~ In x (map snd rotor_pairs)) by (apply disjoint_strings; reflexivity).
  assert (M1 : In (fst ui) (map fst rotor_pairs)) by now apply in_map.
  assert (M2 : In (snd ui) (map snd rotor_pairs)) by now apply in_map.
  split; unfold put_pair; rewrite (agenda_get half I rotor_pairs acc _ D).
  - rewrite (proj2 (str_in_false _ _) (D _ M1)), (proj2 (str_in_true _ _) M1). reflexivity.
  - now rewrite (proj2 (str_in_true _ _) M2).
Qed.

(** the agenda if the general current is not given *)
Lemma agenda_cons_err limits half r u i rest acc :
  (forall v, ~ given limits "i" v) -> dict_get u limits = None ->
  agenda limits half r ((u, i) :: rest) acc = Err KeyError.
Proof.
  intros H1 H2. cbn [agenda]. unfold py_or. unfold dict_item. rewrite H2. cbn [bind].
  destruct (dict_get "i" limits) as [v|] eqn:E; [|reflexivity]. destruct (reqP v 0) as [Z|Z]; [reflexivity|].
  exfalso. apply (H1 v). split; assumption.
Qed.

(** ** Doubly fed motors do not depend on the history *)
Definition agenda_names (n : nat) : list (string * string) := stator_pairs ++ times n rotor_pairs.
Lemma dfim_pairs n : combine ((scim_io_voltages ++ times n io_rotor_voltages) ++ rotor_voltages)
                             ((scim_io_currents ++ times n io_rotor_currents) ++ rotor_currents) =
  agenda_names n ++ ralpha_pairs.
Proof.
  rewrite combine_app, combine_app, combine_times; try reflexivity.
  rewrite !app_length. f_equal. now apply times_length.
Qed.
Lemma scim_pairs n : combine (scim_io_voltages ++ times n io_rotor_voltages) (scim_io_currents ++ times n io_rotor_currents) = agenda_names n.
Proof. rewrite combine_app, combine_times; reflexivity. Qed.
Lemma agenda_dfim limits half r n : dict_get "u_sa" limits = None ->
  agenda limits half r (agenda_names (S n) ++ ralpha_pairs) [] = agenda limits half r (agenda_names 1 ++ ralpha_pairs) [].
Proof.
  intros Hu. destruct (given_or_missing limits "i") as [[I HI]|Hm].
  - rewrite !(agenda_given limits half r I _ HI). f_equal. change (fun acc ui => dict_set (snd ui) I (dict_set (fst ui) half acc)) with (put_pair half I).
    unfold agenda_names. rewrite <- !app_assoc.
    rewrite (fold_left_app (put_pair half I) stator_pairs (times (S n) rotor_pairs ++ ralpha_pairs)), (fold_left_app (put_pair half I) stator_pairs (times 1 rotor_pairs ++ ralpha_pairs)).
    rewrite (fold_left_app (put_pair half I) (times (S n) rotor_pairs) ralpha_pairs), (fold_left_app (put_pair half I) (times 1 rotor_pairs) ralpha_pairs).
    rewrite (agenda_rotor half I n). reflexivity.
  - unfold agenda_names, stator_pairs. cbn [scim_io_voltages scim_io_currents combine app]. rewrite !agenda_cons_err by assumption. reflexivity.
Qed.
Lemma merged_no_key d u lim k : NoDup (dict_keys u) -> NoDup (dict_keys d) -> merged d u = Ok lim -> ~ In k (dict_keys d) -> dict_get k lim = None.
Proof.
  intros H1 H2 E H3. destruct (merged_spec d u lim H1 H2 E) as (A & _ & C). rewrite C. unfold chosen.
  rewrite (proj2 (dict_get_none k u)) by auto. now apply dict_get_none.
Qed.
Lemma dfim_with_times m ul un n : NoDup (dict_keys ul) -> NoDup (dict_keys un) ->
  dfim_with ((scim_io_voltages ++ times (S n) io_rotor_voltages) ++ rotor_voltages)
            ((scim_io_currents ++ times (S n) io_rotor_currents) ++ rotor_currents) m ul un = dfim_new m ul un.
Proof.
  intros Hul Hun. unfold dfim_with, dfim_new, construct. rewrite dfim_pairs.
  destruct (merged dfim_default_limits ul) as [lim|e] eqn:E1; [|reflexivity]. cbn [bind].
  destruct (merged dfim_default_nominal un) as [nom|e] eqn:E2; [|reflexivity]. cbn [bind].
  assert (K1 : dict_get "u_sa" lim = None).
  { eapply (merged_no_key _ _ _ _ Hul (def_lim_nodup (DFIM m)) E1). apply str_in_false. reflexivity. }
  assert (K2 : dict_get "u_sa" nom = None).
  { eapply (merged_no_key _ _ _ _ Hun (def_nom_nodup (DFIM m)) E2). apply str_in_false. reflexivity. }
  unfold tp_update. destruct (dict_item "u" lim) as [u1|]; [|reflexivity]. cbn [bind]. destruct (dict_item "u" nom) as [u2|]; [|reflexivity]. cbn [bind].
  rewrite (agenda_dfim lim) by assumption. rewrite (agenda_dfim nom) by assumption. reflexivity.
Qed.

(** ** Squirrel cage motors after doubly fed ones: the rotor entries are added, nothing else changes *)
Definition agree (a b : dict R) : Prop := forall k, ~ rotor_name k -> dict_get k a = dict_get k b.
Lemma rotor_pairs_names : map fst rotor_pairs ++ map snd rotor_pairs = ["u_ra"; "u_rb"; "u_rc"; "u_rd"; "u_rq"; "i_ra"; "i_rb"; "i_rc"; "i_rd"; "i_rq"].
Proof. reflexivity. Qed.
Definition scim_agenda (half I : R) (n : nat) : dict R := agenda_dict half I (agenda_names n).
Lemma scim_agenda_S half I n : scim_agenda half I (S n) = fold_left (put_pair half I) rotor_pairs (scim_agenda half I 0).
Proof.
  unfold scim_agenda, agenda_dict, agenda_names. change (fun acc ui => dict_set (snd ui) I (dict_set (fst ui) half acc)) with (put_pair half I).
  rewrite fold_left_app, agenda_rotor. cbn [times]. now rewrite app_nil_r.
Qed.
Lemma rotor_disj : forall x, In x (map fst rotor_pairs) -> ~ In x (map snd rotor_pairs).
Proof. apply disjoint_strings; reflexivity. Qed.
Lemma scim_agenda_get half I n k : dict_get k (scim_agenda half I (S n)) =
  if str_in k io_rotor_currents then Some I else if str_in k io_rotor_voltages then Some half else dict_get k (scim_agenda half I 0).
Proof. rewrite scim_agenda_S. exact (agenda_get half I rotor_pairs _ k rotor_disj). Qed.
Lemma not_rotor k : ~ rotor_name k -> str_in k io_rotor_currents = false /\ str_in k io_rotor_voltages = false.
Proof.
  intros H. split; apply str_in_false; intros K; apply H; unfold rotor_name; rewrite <- rotor_pairs_names; apply in_or_app; [right|left]; exact K.
Qed.
Lemma scim_agenda_agree half I n : agree (scim_agenda half I n) (scim_agenda half I 0).
Proof.
  intros k Hk. destruct n as [|n]; [reflexivity|]. rewrite scim_agenda_get. destruct (not_rotor k Hk) as [-> ->]. reflexivity.
Qed.
Lemma scim_agenda_nodup half I n : NoDup (dict_keys (scim_agenda half I n)).
Proof. apply agenda_dict_nodup. Qed.
Lemma agree_set k v a b : agree a b -> agree (dict_set k v a) (dict_set k v b).
Proof. intros H k' Hk. rewrite !dict_get_set. destruct (String.eqb k k'); [reflexivity|auto]. Qed.

Lemma base_update_agree omega lim lim' nom nom' ld ld' nd nd' :
  NoDup (dict_keys lim) -> NoDup (dict_keys lim') -> NoDup (dict_keys ld) -> NoDup (dict_keys ld') ->
  agree lim lim' -> agree nom nom' -> agree ld ld' -> agree nd nd' ->
  agree (fst (base_update omega lim nom ld nd)) (fst (base_update omega lim' nom' ld' nd')) /\
  agree (snd (base_update omega lim nom ld nd)) (snd (base_update omega lim' nom' ld' nd')).
Proof.
  intros N1 N2 N3 N4 A1 A2 A3 A4.
  assert (L : agree (fst (base_update omega lim nom ld nd)) (fst (base_update omega lim' nom' ld' nd'))).
  { intros k Hk. rewrite !base_update_limits by assumption. now rewrite (A1 k Hk), (agree_set "omega" omega _ _ A3 k Hk). }
  split; [exact L|]. intros k Hk. rewrite !base_update_nominal by assumption. cbv zeta. now rewrite (L k Hk), (A2 k Hk), (A4 k Hk).
Qed.
Lemma tlimit_agree m lim nom lim' nom' : agree lim lim' -> im_torque_limit m lim nom = im_torque_limit m lim' nom'.
Proof.
  intros A. unfold im_torque_limit, dict_item. rewrite (A "i_sd"), (A "i_sq"); [reflexivity| |]; unfold rotor_name; apply str_in_false; reflexivity.
Qed.
Definition agree_tp (a b : tp_limits) : Prop := agree (tp_lim a) (tp_lim b) /\ agree (tp_nom a) (tp_nom b) /\ tp_nan a = tp_nan b.
Definition same_res (r r' : res tp_limits) : Prop :=
  match r, r' with Ok a, Ok b => agree_tp a b | Err e, Err e' => e = e' | _, _ => False end.
Lemma scim_with_times m ul un n : NoDup (dict_keys ul) -> NoDup (dict_keys un) ->
  same_res (scim_with (scim_io_voltages ++ times n io_rotor_voltages) (scim_io_currents ++ times n io_rotor_currents) m ul un) (scim_new m ul un).
Proof.
  intros Hul Hun. unfold scim_with, scim_new, construct. rewrite scim_pairs.
  destruct (merged scim_default_limits ul) as [lim|e] eqn:E1; [|reflexivity]. cbn [bind].
  destruct (merged scim_default_nominal un) as [nom|e] eqn:E2; [|reflexivity]. cbn [bind].
  assert (K1 : dict_get "u_sa" lim = None).
  { eapply (merged_no_key _ _ _ _ Hul (def_lim_nodup (SCIM m)) E1). apply str_in_false. reflexivity. }
  assert (K2 : dict_get "u_sa" nom = None).
  { eapply (merged_no_key _ _ _ _ Hun (def_nom_nodup (SCIM m)) E2). apply str_in_false. reflexivity. }
  assert (ND : NoDup (dict_keys lim)) by exact (proj1 (proj2 (merged_spec _ _ _ Hul (def_lim_nodup (SCIM m)) E1))).
  unfold tp_update. destruct (dict_item "u" lim) as [u1|]; [|reflexivity]. cbn [bind]. destruct (dict_item "u" nom) as [u2|]; [|reflexivity]. cbn [bind].
  change (combine scim_io_voltages scim_io_currents) with stator_pairs. replace stator_pairs with (agenda_names 0) by apply app_nil_r.
  destruct (given_or_missing lim "i") as [[I HI]|Hm].
  2:{ unfold agenda_names, stator_pairs. cbn [scim_io_voltages scim_io_currents combine app]. do 2 rewrite (agenda_cons_err lim) by assumption. reflexivity. }
  rewrite !(agenda_given lim _ (im_rs m) I _ HI). cbn [bind].
  destruct (given_or_missing nom "i") as [[J HJ]|Hm].
  2:{ unfold agenda_names, stator_pairs. cbn [scim_io_voltages scim_io_currents combine app]. do 2 rewrite (agenda_cons_err nom) by assumption. reflexivity. }
  rewrite !(agenda_given nom _ (im_rs m) J _ HJ). cbn [bind].
  fold (agenda_dict (1 / 2 * u1) I (agenda_names n)) (agenda_dict (1 / 2 * u1) I (agenda_names 0)).
  fold (agenda_dict (1 / 2 * u2) J (agenda_names n)) (agenda_dict (1 / 2 * u2) J (agenda_names 0)).
  fold (scim_agenda (1 / 2 * u1) I n) (scim_agenda (1 / 2 * u1) I 0) (scim_agenda (1 / 2 * u2) J n) (scim_agenda (1 / 2 * u2) J 0).
  assert (R : forall a, agree a a) by (intros a k _; reflexivity).
  pose proof (base_update_agree (4000 * PI / 30) lim lim nom nom _ _ _ _ ND ND (scim_agenda_nodup (1 / 2 * u1) I n) (scim_agenda_nodup (1 / 2 * u1) I 0)
     (R lim) (R nom) (scim_agenda_agree (1 / 2 * u1) I n) (scim_agenda_agree (1 / 2 * u2) J n)) as [L1 L2].
  pose proof (base_update_nodup (4000 * PI / 30) lim nom (scim_agenda (1 / 2 * u1) I n) (scim_agenda (1 / 2 * u2) J n) ND) as M1.
  pose proof (base_update_nodup (4000 * PI / 30) lim nom (scim_agenda (1 / 2 * u1) I 0) (scim_agenda (1 / 2 * u2) J 0) ND) as M2.
  destruct (base_update (4000 * PI / 30) lim nom (scim_agenda (1 / 2 * u1) I n) (scim_agenda (1 / 2 * u2) J n)) as [a1 b1].
  destruct (base_update (4000 * PI / 30) lim nom (scim_agenda (1 / 2 * u1) I 0) (scim_agenda (1 / 2 * u2) J 0)) as [a2 b2].
  cbn [fst snd] in L1, L2, M1, M2. rewrite (tlimit_agree m a1 b1 a2 b2 L1).
  destruct (im_torque_limit m a2 b2) as [[tq|]|e]; cbn [bind]; [| |reflexivity].
  - assert (T : NoDup (dict_keys [("torque", tq)])) by (constructor; [intros []|constructor]).
    pose proof (base_update_agree (4000 * PI / 30) a1 a2 b1 b2 _ _ _ _ M1 M2 T T L1 L2 (R _) (R [])) as [L3 L4].
    destruct (base_update (4000 * PI / 30) a1 b1 [("torque", tq)] []) as [a3 b3].
    destruct (base_update (4000 * PI / 30) a2 b2 [("torque", tq)] []) as [a4 b4]. split; [exact L3|]. split; [exact L4|reflexivity].
  - split; [exact L1|]. split; [exact L2|]. cbn [tp_nan]. unfold unset. rewrite (L1 "torque"); [reflexivity|].
    unfold rotor_name; apply str_in_false; reflexivity.
Qed.
