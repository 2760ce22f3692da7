(** Model of the cascaded and field oriented example controllers in
    examples/classic_controllers (see Ex_Model.v for the simplifications). *)
From Verif Require Import PyBase PyDict Transform_Model PhysSys_Model Ex_Model.
Local Open Scope string_scope.
Local Open Scope list_scope.
Local Open Scope R_scope.

(** ** CascadedController, controllers/cascaded_controller.py *)
(** The part for the excitation current: reference index ([False] is None), limits of the
    second action (continuous actions only), controller *)
Record cexc := { cx_ref : option nat; cx_low : R; cx_high : R; cx_ctl : base }.
Record cas := { cc_box : bool; cc_ref_idx : nat; cc_rsi : list nat; cc_ia : nat; cc_ie : nat; cc_u : nat; cc_omega : nat; cc_torque : nat;
                cc_limit : list R; cc_nominal : list R; cc_slow : list R; cc_shigh : list R; cc_lolim : list R; cc_hilim : list R;
                cc_alow : R; cc_ahigh : R; cc_psi : R; cc_le : R; cc_ra : option R; cc_re : option R;
                cc_om : nat; cc_exc : option cexc; cc_stages : list base; cc_ref : list R }.
(** [stage_type[i]]: true for a continuous controller, 106 *)
Definition is_cont (b : base) : bool := match b with BPi _ | BPid _ => true | _ => false end.
Definition cc_eidx (c : cas) : nat := match cc_exc c with Some _ => 1 | None => 0 end.

(** [stages.index(stage) != 0], 109-114: whether the first stage equal to this one is not the
    first of the list.  Simplification: two dictionaries count as equal if they list the same
    numbers in the same order. *)
Fixpoint par_eqb (a b : dict R) : bool :=
  match a, b with
  | [], [] => true
  | (k, x) :: a', (l, y) :: b' => String.eqb k l && req x y && par_eqb a' b'
  | _, _ => false
  end.
Definition stage_eqb (a b : stage) : bool := String.eqb (st_type a) (st_type b) && par_eqb (st_par a) (st_par b).
Definition is_cascaded (ss : list stage) (s : stage) : bool := match ss with s0 :: _ => negb (stage_eqb s0 s) | [] => false end.
Fixpoint make_stages (e : env) (all ss : list stage) : res (list base) :=
  match ss with
  | [] => Ok []
  | s :: ss' => do b <- base_make e s (is_cascaded all s) false; do bs <- make_stages e all ss'; Ok (b :: bs)
  end.
(** [dict.get(key, False)] used as a number *)
Definition get_or_0 (k : string) (d : dict R) : R := match dict_get k d with Some x => x | None => 0 end.
(** element wise [a * b / c] of three arrays *)
Definition muldiv (a b c : list R) : list R := map2 (fun x l => x / l) (map2 Rmult a b) c.
(** [__init__], 18-127.  The key "psie_e" (52) is the one in the code. *)
Definition cc_new (e : env) (ss : stages) (refs : list string) : res cas :=
  do ie <- last_of (en_cur e); do ia <- at_ (en_cur e) 0; do u <- last_of (en_volt e);
  do om <- str_index "omega" (en_names e); do tq <- str_index "torque" (en_names e);
  do ri <- first_where not_ie refs; do rn <- at_ refs ri; do rs <- str_index rn (en_names e);
  do al <- match en_space e with
    | SBox low high => do l0 <- item low 0; do h0 <- item high 0; do lo <- scaled e l0 u; do hi <- scaled e h0 u; Ok (lo, hi)
    | _ => Ok (0, 0)
    end;
  do x <- (if en_extex e then
      match ss with
      | SPair sa sb =>
          let re := match first_where is_ie refs with Ok i => Some i | Err _ => None end in
          let w := Nat.eqb om rs || Nat.eqb om ia in
          do s1 <- at_ sb 0; do c1 <- base_make e s1 false true;
          do ue <- str_index "u_e" (en_names e);
          do el <- match en_space e with
            | SBox low high => do l1 <- item low 1; do h1 <- item high 1; do lo <- scaled e l1 ue; do hi <- scaled e h1 ue; Ok (lo, hi)
            | _ => Ok (0, 0)
            end;
          Ok (if w then [ia; tq; rs; ie] else [ia; rs; ie], (if w then 1 else 0)%nat,
              Some {| cx_ref := re; cx_low := fst el; cx_high := snd el; cx_ctl := c1 |}, sa)
      | SList l => do _ <- py_assert (Nat.eqb (length l) 2); Err KeyError
      end
    else
      do _ <- py_assert (Nat.leb (length refs) 1);
      match ss with
      | SList l => Ok ([ia; rs], 0%nat, None, l)
      | SPair _ _ => Err TypeError
      end);
  let '(rsi, w, exc, sl) := x in
  do bs <- make_stages e sl sl;
  do b0 <- at_ bs 0;
  let box := match en_space e with SBox _ _ => true | _ => false end in
  do _ <- py_assert (Bool.eqb box (is_cont b0));
  Ok {| cc_box := box; cc_ref_idx := ri; cc_rsi := rsi; cc_ia := ia; cc_ie := ie; cc_u := u; cc_omega := om; cc_torque := tq;
        cc_limit := en_limits e; cc_nominal := en_nominal e; cc_slow := en_low e; cc_shigh := en_high e;
        cc_lolim := muldiv (en_low e) (en_nominal e) (en_limits e); cc_hilim := muldiv (en_high e) (en_nominal e) (en_limits e);
        cc_alow := fst al; cc_ahigh := snd al; cc_psi := get_or_0 "psie_e" (en_mp e); cc_le := get_or_0 "l_e_prime" (en_mp e);
        cc_ra := dict_get "r_a" (en_mp e); cc_re := dict_get "r_e" (en_mp e); cc_om := w; cc_exc := exc; cc_stages := bs;
        cc_ref := repeat 0 (length bs + match exc with Some _ => 1 | None => 0 end + w) |}.

(** [feedforward], 229-235 *)
Definition cc_feedforward (c : cas) (state : list R) : res R :=
  do psi <- (if req (cc_psi c) 0 then do i <- item state (cc_ie c); do n <- item (cc_nominal c) (cc_ie c); Ok (cc_le c * i * n)
             else Ok (cc_psi c));
  do w <- item state (cc_omega c); do nw <- item (cc_nominal c) (cc_omega c); do nu <- item (cc_nominal c) (cc_u c);
  Ok (w * nw * Rmax psi (1 / 1000000) / nu).
(** One run of the loop body over the higher stages, 142-164, on the stages and [self.ref] *)
Definition cc_stage (c : cas) (state reference : list R) (i : nat) (x : list base * list R) : res (list base * list R) :=
  let ri := (i - 1 + cc_om c)%nat in
  do si <- at_ (cc_rsi c) ri;
  do b <- at_ (fst x) i; do s <- item state si; do r <- item (snd x) (S ri);
  let (b1, y) := b_control b s r in
  do lo <- item (cc_lolim c) si; do hi <- item (cc_hilim c) si;
  if rle lo y && rle y hi && is_cont b then
    do sj <- at_ (cc_rsi c) (i + cc_om c); do s2 <- item state sj; do r0 <- item reference 0;
    do b2 <- b_integrate b1 s2 r0;
    Ok (list_set i b2 (fst x), list_set ri y (snd x))
  else Ok (list_set i b1 (fst x), list_set ri (if is_cont b then np_clip y lo hi else y) (snd x)).
Fixpoint cc_loop (c : cas) (state reference : list R) (is : list nat) (x : list base * list R) : res (list base * list R) :=
  match is with
  | [] => Ok x
  | i :: is' => do x' <- cc_stage c state reference i x; cc_loop c state reference is' x'
  end.
(** [range(n - 1, e - om, -1)], 137-141 *)
Definition cc_range (n e om : nat) : list nat := rev (seq (S (e - om)) (n - S (e - om))).
(** [l[-1 - k] = v] *)
Definition set_back (k : nat) (v : R) (l : list R) : res (list R) :=
  if Nat.ltb k (length l) then Ok (list_set (length l - 1 - k) v l) else Err IndexError.
(** The optimal currents of the externally excited motor, 167-182; the fourth root is a
    double square root (the radicand is a square over positive numbers) *)
Definition cc_optimal (c : cas) (ref : list R) : res (list R) :=
  match cc_ra c, cc_re c with
  | Some ra, Some re =>
      do t <- item ref 1; do tl <- item (cc_limit c) (cc_torque c);
      do el <- item (cc_slow c) (cc_ie c); do eh <- item (cc_shigh c) (cc_ie c); do li <- item (cc_limit c) (cc_ie c);
      do al <- item (cc_slow c) (cc_ia c); do ah <- item (cc_shigh c) (cc_ia c); do la <- item (cc_limit c) (cc_ia c);
      let ie := np_clip (sqrt (sqrt (ra * ((t * tl) * (t * tl)) / (re * (cc_le c * cc_le c))))) (el * li) (eh * li) in
      let ia := np_clip (t * tl / (cc_le c * ie)) (al * la) (ah * la) in
      do ref1 <- set_back 0 (ie / li) ref;
      Ok (list_set 0 (ia / la) ref1)
  | _, _ => Err TypeError
  end.
Definition cc_with (c : cas) (bs : list base) (ref : list R) (x : option cexc) : cas :=
  {| cc_box := cc_box c; cc_ref_idx := cc_ref_idx c; cc_rsi := cc_rsi c; cc_ia := cc_ia c; cc_ie := cc_ie c; cc_u := cc_u c;
     cc_omega := cc_omega c; cc_torque := cc_torque c; cc_limit := cc_limit c; cc_nominal := cc_nominal c; cc_slow := cc_slow c;
     cc_shigh := cc_shigh c; cc_lolim := cc_lolim c; cc_hilim := cc_hilim c; cc_alow := cc_alow c; cc_ahigh := cc_ahigh c;
     cc_psi := cc_psi c; cc_le := cc_le c; cc_ra := cc_ra c; cc_re := cc_re c; cc_om := cc_om c; cc_exc := x; cc_stages := bs;
     cc_ref := ref |}.
(** The references of all stages, 133-182 *)
Definition cc_refs (c : cas) (state reference : list R) : res (list base * list R) :=
  do r <- item reference (cc_ref_idx c);
  do ref0 <- set_back (cc_eidx c) r (cc_ref c);
  do x <- cc_loop c state reference (cc_range (length (cc_stages c)) (cc_eidx c) (cc_om c)) (cc_stages c, ref0);
  match cc_exc c with
  | None => Ok x
  | Some _ => do ref2 <- cc_optimal c (snd x); Ok (fst x, ref2)
  end.
(** [control], 129-227: the action is a number for discrete and an array for continuous
    controllers; both are lists here *)
Definition cc_control (c : cas) (state reference : list R) : res (cas * list R) :=
  do x <- cc_refs c state reference;
  do b0 <- at_ (fst x) 0; do i0 <- at_ (cc_rsi c) 0; do s0 <- item state i0; do r0 <- item (snd x) 0;
  let (b, y) := b_control b0 s0 r0 in
  do m <- (if is_cont b0 then do ff <- cc_feedforward c state; limited b (cc_alow c) (cc_ahigh c) (y + ff) s0 r0 else Ok (b, y));
  let bs := list_set 0 (fst m) (fst x) in
  match cc_exc c with
  | None => Ok (cc_with c bs (snd x) None, [snd m])
  | Some e =>
      do ref <- match cx_ref e with
        | Some (S k) => do v <- item reference (S k); set_back 0 v (snd x)
        | _ => Ok (snd x)
        end;
      do se <- item state (cc_ie c); do re <- last_of ref;
      let (be, ye) := b_control (cx_ctl e) se re in
      if is_cont b0 then
        do be2 <- (if rle (cx_low e) ye && rle ye (cx_high e) then b_integrate be se re else Ok be);
        Ok (cc_with c bs ref (Some {| cx_ref := cx_ref e; cx_low := cx_low e; cx_high := cx_high e; cx_ctl := be2 |}),
            [np_clip (snd m) (cx_low e) (cx_high e); np_clip ye (cx_low e) (cx_high e)])
      else
        Ok (cc_with c bs ref (Some {| cx_ref := cx_ref e; cx_low := cx_low e; cx_high := cx_high e; cx_ctl := be |}), [snd m; ye])
  end.
(** [reset], 237-241 *)
Definition cc_reset (c : cas) : cas :=
  cc_with c (map b_reset (cc_stages c)) (cc_ref c)
    (match cc_exc c with
     | None => None
     | Some e => Some {| cx_ref := cx_ref e; cx_low := cx_low e; cx_high := cx_high e; cx_ctl := b_reset (cx_ctl e) |}
     end).

(** ** FieldOrientedController, controllers/foc_controller.py *)
(** State indices that are used, [limit], motor parameters, [dead_time], [tau], action limits
    ([action_space.low[0]], [.high[0]]), [decoupling] *)
Record foc_par := { fo_refd : nat; fo_refq : nat; fo_isd : nat; fo_isq : nat; fo_usd : nat; fo_usq : nat; fo_omega : nat; fo_eps : nat;
                    fo_limit : list R; fo_p : R; fo_ld : R; fo_lq : R; fo_psi : R; fo_dead : R; fo_tau : R; fo_lo : R; fo_hi : R;
                    fo_dec : bool }.
(** The angle at which the voltage is applied, 106-113 (cascaded_foc_controller.py 167-174) *)
Definition foc_angle (f : foc_par) (state : list R) : res R :=
  do e <- item state (fo_eps f); do le <- item (fo_limit f) (fo_eps f); do w <- item state (fo_omega f); do lw <- item (fo_limit f) (fo_omega f);
  Ok (e * le + fo_dead f * fo_tau f * w * lw * fo_p f).
(** [backward_transformation], 30-32 *)
Definition backward (x y eps : R) : res (list R) := do ab <- q [x; y] eps; t_32 ab.
(** Decoupling voltages, 118-140; [k] is the index of the limit that multiplies i_sd:
    i_sd here, but u_sd in cascaded_foc_controller.py 221-231 *)
Definition foc_usd0 (f : foc_par) (state : list R) : res R :=
  do w <- item state (fo_omega f); do iq <- item state (fo_isq f); do lq <- item (fo_limit f) (fo_isq f);
  do lu <- item (fo_limit f) (fo_usd f); do lw <- item (fo_limit f) (fo_omega f);
  Ok (- w * fo_p f * fo_lq f * iq * lq / lu * lw).
Definition foc_usq0 (k : nat) (f : foc_par) (state : list R) : res R :=
  do w <- item state (fo_omega f); do id <- item state (fo_isd f); do lk <- item (fo_limit f) k;
  do lu <- item (fo_limit f) (fo_usq f); do lw <- item (fo_limit f) (fo_omega f);
  Ok (w * fo_p f * (id * fo_ld f * lk + fo_psi f) / lu * lw).
Definition foc_decouple (k : nat) (f : foc_par) (state : list R) : res (R * R) :=
  if fo_dec f then do d <- foc_usd0 f state; do s <- foc_usq0 k f state; Ok (d, s) else Ok (0, 0).
(** [max(a)], [min(a)] of an array; ValueError if empty *)
Definition list_max (l : list R) : res R := match l with [] => Err ValueError | x :: l' => Ok (fold_left Rmax l' x) end.
Definition list_min (l : list R) : res R := match l with [] => Err ValueError | x :: l' => Ok (fold_left Rmin l' x) end.
(** Shifting the reference potential, 155 (cascaded 256) *)
Definition shifted (a : list R) : res (list R) :=
  do mx <- list_max a; do mn <- list_min a; Ok (map (fun x => x - 5 / 10 * (mx + mn)) a).
(** From the dq voltages to the action, 152-160: the action and whether it was not clipped *)
Definition foc_action (f : foc_par) (ud uq eps : R) : res (list R * bool) :=
  do a <- backward ud uq eps; do t <- shifted a;
  let act := map (fun x => np_clip x (fo_lo f) (fo_hi f)) t in
  Ok (act, forallb (fun p => req (fst p) (snd p)) (combine act t)).
(** [control] with a continuous action space, 114-166; [rd], [rq] are the current references *)
Definition foc_cont (k : nat) (f : foc_par) (cs : base * base) (state : list R) (rd rq : R) : res (base * base * list R) :=
  do eps <- foc_angle f state;
  do u0 <- foc_decouple k f state;
  do id <- item state (fo_isd f); do iq <- item state (fo_isq f);
  let (cd, yd) := b_control (fst cs) id rd in
  let (cq, yq) := b_control (snd cs) iq rq in
  do a <- foc_action f (yd + fst u0) (yq + snd u0) eps;
  if snd a then do cd' <- b_integrate cd id rd; do cq' <- b_integrate cq iq rq; Ok (cd', cq', fst a)
  else Ok (cd, cq, fst a).
Definition foc_control (f : foc_par) (cs : base * base) (state reference : list R) : res (base * base * list R) :=
  do rd <- item reference (fo_refd f); do rq <- item reference (fo_refq f); foc_cont (fo_isd f) f cs state rd rq.
(** The decision of the cascaded controller on the same references, cascaded_foc_controller.py
    217-272; in torque control [rd] and [rq] come from the torque conversion *)
Definition cfoc_cont (f : foc_par) := foc_cont (fo_usd f) f.
(** [control] with a discrete action space, 169-181 (cascaded 275-282): [iabc] are the indices
    of the phase currents; three controllers *)
Definition foc_disc (f : foc_par) (iabc : list nat) (cs : list base) (state : list R) (rd rq : R) : res (list base * R) :=
  do eps <- foc_angle f state; do ref <- backward rd rq eps;
  do j0 <- at_ iabc 0; do j1 <- at_ iabc 1; do j2 <- at_ iabc 2;
  do s0 <- item state j0; do s1 <- item state j1; do s2 <- item state j2;
  do c0 <- at_ cs 0; do c1 <- at_ cs 1; do c2 <- at_ cs 2;
  do r0 <- item ref 0; do r1 <- item ref 1; do r2 <- item ref 2;
  let (d0, a0) := b_control c0 s0 r0 in
  let (d1, a1) := b_control c1 s1 r1 in
  let (d2, a2) := b_control c2 s2 r2 in
  Ok ([d0; d1; d2], 4 * a0 + 2 * a1 + a2).

(** ** FluxObserver, controllers/flux_observer.py *)
(** parameters 11-18, indices 27-32 *)
Record fobs := { fb_lm : R; fb_lr : R; fb_rr : R; fb_p : R; fb_tau : R; fb_i : list nat; fb_omega : nat }.
(** [estimate], 34-58, of a denormalised state: the new integrator and the returned pair *)
Definition fb_estimate (f : fobs) (psi : R * R) (state : list R) : res ((R * R) * (R * R)) :=
  do i <- select (fb_i f) state; do w0 <- item state (fb_omega f);
  let w := w0 * fb_p f in
  do ab <- t_23 i; do ia <- item ab 0; do ib <- item ab 1;
  let k := fb_rr f / fb_lr f in
  let da := ia * fb_rr f * fb_lm f / fb_lr f - (fst psi * k - snd psi * - w) in
  let db := ib * fb_rr f * fb_lm f / fb_lr f - (fst psi * - w + snd psi * k) in
  let n := (fst psi + da * fb_tau f, snd psi + db * fb_tau f) in
  Ok (n, (sqrt (fst n * fst n + snd n * snd n), np_arctan2 (snd n) (fst n))).

(** ** InductionMotorFieldOrientedController, controllers/induction_motor_foc.py *)
(** Motor parameters; [sigma] and the inductances are those of the motor *)
Record imf := { if_lm : R; if_lr : R; if_ls : R; if_sigma : R; if_rr : R }.
(** The speed of the flux, 107-109; [omega_me] is the mechanical speed of the state *)
Definition if_omega_s (f : imf) (omega_me isq psi : R) : R :=
  omega_me + if_rr f * if_lm f / if_lr f * isq / Rmax (Rabs psi) (1 / 10000) * np_sign psi.
(** Decoupling voltages, 122-130 *)
Definition if_usd0 (f : imf) (omega_s isq psi : R) : R :=
  - omega_s * if_sigma f * if_ls f * isq - if_lm f * if_rr f / (if_lr f * if_lr f) * psi.
Definition if_usq0 (f : imf) (omega_s omega_me isd psi : R) : R :=
  omega_s * if_sigma f * if_ls f * isd + omega_me * if_lm f / if_lr f * psi.

(** ** Automatic tuning, classic_controllers.py 299-628 (the current controllers of DC motors) *)
(** [stage[key] = stage.get(key, v)] *)
Definition set_default (k : string) (v : R) (s : stage) : stage :=
  {| st_type := st_type s; st_par := dict_set k (st_get k v s) (st_par s) |}.
(** The current stage of a ContinuousActionController with i or i_a as reference, 344-347 and
    380-391; [series] for DcSeriesMotor; [a] is the design parameter (default 4).
    Simplification: the entry "l" that is left in the motor parameters is not kept. *)
Definition auto_current (e : env) (series : bool) (a : R) (s : stage) : res stage :=
  do la <- dict_item "l_a" (en_mp e);
  do l <- (if series then do le <- dict_item "l_e" (en_mp e); Ok (la + le) else Ok la);
  do ci <- at_ (en_cur e) 0; do il <- item (en_limits e) ci;
  do vi <- at_ (en_volt e) 0; do ul <- item (en_limits e) vi;
  let p := l / (en_tau e * a) / ul * il in
  let i := p / (en_tau e * (a * a)) in
  let s1 := set_default "i_gain" i (set_default "p_gain" p s) in
  Ok (if String.eqb (st_type s) "pid_controller" then set_default "d_gain" (p * en_tau e) s1 else s1).
