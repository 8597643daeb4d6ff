(** Property theorems about bisection over ell (C145-C148). *)
From Coq Require Import Reals Lra Psatz.
From Verif Require Import Base M_Drivers M_Chol M_Ell M_Lmi M_Misc M_Bisect S_Drivers S_LinAlg P_LinAlg S_Lmi
  S_Ell P_Drivers P_BSearch P_Chol P_Lmi P_Lmi2 P_EllCalc P_Ell P_Ell2 P_Ell3 P_Misc T_Misc T_Drivers T_Ell T_Chol T_Lmi.
Local Open Scope R_scope.

(** An oracle for a family of feasibility problems: after update(t) it accepts a point x only if
    [acc t x], and its cuts keep every z with [keep t z].  J: what is known of the oracle between
    calls, OI t: what is known once update(t) has been called. *)
Definition level_oracle {O} (n : nat) (omega : O -> (nat -> R) -> res (O * option (cut R)))
    (p_update : O -> R -> res O) (J : O -> Prop) (OI : R -> O -> Prop)
    (acc keep : R -> (nat -> R) -> Prop) : Prop :=
  (forall o t o1, J o -> p_update o t = Ok o1 -> OI t o1) /\
  (forall t o, OI t o -> J o) /\
  (forall t o x o' a, OI t o -> omega o x = Ok (o', a) ->
     OI t o' /\ match a with None => acc t x | Some c => forall z, keep t z -> sat_cut n x c z end).

Lemma ell_copy_wf s c : ell_wf s -> ell_copy s = Ok c -> ell_wf c.
Proof.
  intros (Hn & Hc & Hs & Hp & Hk) H. pose proof (ell_copy_spec _ _ H) as (E1 & _ & E3 & E4 & _).
  unfold ell_copy in H.
  destruct (ell_init_ok (VScalar (e_kappa s)) (e_n s) (e_xc s)) as (E & Hi & HE & _); [lia|].
  rewrite Hi in H. cbn [bind] in H. injection H as <-.
  unfold ell_wf. rewrite E1, E3, E4. split; [assumption|]. split; [exact HE|]. auto.
Qed.

(** One probe. *)
Lemma bis_probe {O} n omega p_update J OI acc keep max_it tol w (o : O) s t w' o' s' b :
  level_oracle n omega p_update J OI acc keep -> ell_wf s -> e_n s = n -> J o ->
  bis_omega Rltb omega p_update max_it tol (w, o, s) t = Ok ((w', o', s'), b) ->
  J o' /\ ell_wf s' /\ e_n s' = n /\ e_xc s' = e_xc s /\ e_Q s' = e_Q s /\ e_kappa s' = e_kappa s /\
  (b = true -> acc t (w' (e_xc s))) /\
  exists c o1 tr c' info,
     ell_copy s = Ok c /\ p_update o t = Ok o1 /\
     cutting_plane_feas ell_space Rltb omega max_it tol o1 (w, c) = Ok (tr, o', (w', c'), info) /\
     b = feasible info /\
     (cstatus info = nosoln -> forall z, mem_ell (w, s) z -> ~ keep t z) /\
     (cstatus info <> nosoln -> forall z, mem_ell (w, s) z -> keep t z -> mem_ell (w', c') z).
Proof.
  intros (L1 & L2 & L3) Hw Hn Ho H. unfold bis_omega in H.
  apply bind_ok in H as ([[[w1 o2] s1] b1] & Hb & H). injection H as <- <- <- <-.
  pose proof Hb as Hb'.
  apply ba_call_ell in Hb as (c & o1 & tr & c' & info & Hc & Hu & Hf & Eb & _ & Ex & EQ & Ek).
  pose proof (ell_copy_wf s c Hw Hc) as Hcw.
  pose proof (ell_copy_spec _ _ Hc) as (C1 & C2 & C3 & C4 & _).
  assert (Hsep : separates omega (OI t) (sat_cut (e_n c)) (keep t)).
  { intros p x p' a Hp Hx. rewrite C1, Hn. destruct (L3 _ _ _ _ _ Hp Hx) as [Y1 Y2]. split; [assumption|].
    destruct a; auto. }
  assert (HO1 : OI t o1) by (eapply L1; eauto).
  pose proof (C03_feas_ell_never_loses _ _ _ _ _ _ _ _ _ _ _ _ _ _ Hsep Hcw HO1 Hf) as [N1 N2].
  assert (HO2 : OI t o2).
  { pose proof Hf as Hf3.
    eapply (feas_sound ell_space Rltb omega _ _ _ (OI t) (keep t) (ell_space_sound (e_n c)) Hsep) in Hf3;
      [tauto|split; [exact Hcw|reflexivity]|exact HO1]. }
  pose proof Hf as Hf2. apply feas_feasible in Hf2 as (Hr & Hyes & _).
  pose proof Hr as Hxc. apply feas_replay_xc in Hxc. cbn in Hxc. rewrite C2 in Hxc.
  assert (Es : s1 = s \/ s1 = ell_set_xc s (e_xc s)).
  { unfold ba_call in Hb'. unfold ell_copy_w in Hb'. rewrite Hc in Hb'. cbn [bind] in Hb'.
    rewrite Hu in Hb'. cbn [bind] in Hb'. rewrite Hf in Hb'. cbn [bind] in Hb'.
    injection Hb' as <- _. cbn [ell_space sp_xc snd]. rewrite Hxc. destruct (feasible info); auto. }
  assert (Hmem : forall z, mem_ell (w, c) z <-> mem_ell (w, s) z).
  { intros z. unfold mem_ell. rewrite C1, C2, C3, C4. reflexivity. }
  split; [eapply L2; eauto|].
  split. { destruct Es as [-> | ->]; exact Hw. }
  split. { destruct Es as [-> | ->]; exact Hn. }
  split. { destruct Es as [-> | ->]; reflexivity. }
  split; [assumption|]. split; [assumption|]. split.
  - intros ->. symmetry in Eb. destruct (Hyes Eb) as (tr0 & ->).
    destruct (replay_last_none ell_space omega (OI t)) with
      (tr0 := tr0) (o := o1) (st := (w, c)) (x := centre ell_space (w1, c')) (o' := o2) (st' := (w1, c'))
      as (p & Hp & Hq & _); auto.
    + intros p x p' a Hp Hx. apply (L3 t p x p' a Hp Hx).
    + rewrite <- Ex. apply (L3 _ _ _ _ _ Hp Hq).
  - exists c, o1, tr, c', info. repeat (split; [assumption|]). split.
    + intros Hs z Hz. apply N1; [assumption|]. apply Hmem, Hz.
    + intros Hs z Hz. apply N2; [assumption|]. apply Hmem, Hz.
Qed.

(** All probes of a run. *)
Lemma bis_replay {O} n omega p_update J OI acc keep max_it tol st lo hi tr st' lo' hi' :
  level_oracle n omega p_update J OI acc keep ->
  bs_replay (bis_omega Rltb omega p_update max_it tol) st lo hi tr st' lo' hi' ->
  forall w (o : O) s, st = (w, o, s) -> ell_wf s -> e_n s = n -> J o ->
  (hi' = hi \/ exists x, acc hi' x) /\
  (forall t, In (t, true) tr -> exists x, acc t x) /\
  (forall tr1 t tr2, tr = tr1 ++ (t, false) :: tr2 -> exists w1 o1 s1 lo1 hi1,
     bs_replay (bis_omega Rltb omega p_update max_it tol) (w, o, s) lo hi tr1 (w1, o1, s1) lo1 hi1 /\
     e_n s1 = e_n s /\ e_xc s1 = e_xc s /\ e_Q s1 = e_Q s /\ e_kappa s1 = e_kappa s /\
     exists c p trf o2 w2 c2 info,
     ell_copy s1 = Ok c /\ p_update o1 t = Ok p /\
     cutting_plane_feas ell_space Rltb omega max_it tol p (w1, c) = Ok (trf, o2, (w2, c2), info) /\
     feasible info = false /\
     (cstatus info = nosoln -> forall z, mem_ell (w1, s1) z -> ~ keep t z) /\
     (cstatus info <> nosoln -> forall z, mem_ell (w1, s1) z -> keep t z -> mem_ell (w2, c2) z)).
Proof.
  intros HL H.
  induction H as [st lo hi|st lo hi t [[w1 o1] s1] tr st' lo' hi' Hp Hr IH
                 |st lo hi t [[w1 o1] s1] tr st' lo' hi' Hp Hr IH]; intros w o s -> Hw Hn Ho.
  - split; [left; reflexivity|]. split; [intros t []|]. intros [|? tr1] t tr2 E; discriminate.
  - destruct (bis_probe _ _ _ _ _ _ _ _ _ _ _ _ _ _ _ _ _ HL Hw Hn Ho Hp)
      as (J1 & W1 & N1 & X1 & Q1 & K1 & Ht & _).
    destruct (IH _ _ _ eq_refl W1 N1 J1) as (I1 & I2 & I3).
    split; [destruct I1 as [-> |I1]; [right; eexists; apply Ht; reflexivity|right; exact I1]|].
    split.
    + intros u [E|E]; [injection E as <-; eexists; apply Ht; reflexivity|auto].
    + intros [|ev tr1] u tr2 E; [discriminate|]. injection E as <- E.
      destruct (I3 tr1 u tr2 E) as (a & b & c & d & e & Hre & X).
      exists a, b, c, d, e. split; [eapply BR_true; eassumption|].
      rewrite Hn, <- N1, <- X1, <- Q1, <- K1. exact X.
  - destruct (bis_probe _ _ _ _ _ _ _ _ _ _ _ _ _ _ _ _ _ HL Hw Hn Ho Hp)
      as (J1 & W1 & N1 & X1 & Q1 & K1 & _ & c & p1 & trf & c2 & info & Hc & Hu & Hf & Hb & F1 & F2).
    destruct (IH _ _ _ eq_refl W1 N1 J1) as (I1 & I2 & I3).
    split; [exact I1|]. split.
    + intros u [E|E]; [discriminate|auto].
    + intros [|ev tr1] u tr2 E.
      * injection E as <- _. exists w, o, s, lo, hi. split; [apply BR_nil|].
        do 4 (split; [reflexivity|]). exists c, p1, trf, o1, w1, c2, info. auto 8.
      * injection E as <- E. destruct (I3 tr1 u tr2 E) as (a & b & c' & d & e & Hre & X).
        exists a, b, c', d, e. split; [eapply BR_false; eassumption|].
        rewrite Hn, <- N1, <- X1, <- Q1, <- K1. exact X.
Qed.

(** ** C145 *)
(** A value that bisection accepts is attained; in particular the value returned when
    feasible = True. *)
Theorem C145_value_attained :
  forall (O : Type) n omega p_update J OI acc keep max_it tol bmax_it btol
         w (o : O) s lo hi tr st' u info,
  level_oracle n omega p_update J OI acc keep -> ell_wf s -> e_n s = n -> J o ->
  bsearch_R (bis_omega Rltb omega p_update max_it tol) bmax_it btol (w, o, s) (lo, hi)
    = Ok (tr, st', (u, info)) ->
  (feasible info = true -> exists x, acc u x) /\
  (forall t, In (t, true) tr -> exists x, acc t x).
Proof.
  intros * HL Hw Hn Ho H. unfold bsearch_R in H.
  apply bsearch_spec in H as (l & Hr & _ & Hf & _).
  destruct (bis_replay _ _ _ _ _ _ _ _ _ _ _ _ _ _ _ _ HL Hr _ _ _ eq_refl Hw Hn Ho) as (H1 & H2 & _).
  split; [|exact H2]. intros E. rewrite E in Hf. destruct H1 as [-> |H1]; [|exact H1].
  assert (E2 : Req_bool hi hi = true) by (apply Reqb_true; reflexivity). rewrite E2 in Hf. discriminate.
Qed.
Print Assumptions C145_value_attained.

(** ** C148 *)
(** Full claim (refuted below): a value is rejected only if its problem has no solution in the
    ellipsoid given to the adaptor, or the inner run was cut short.  Proved: in the ellipsoid of
    the same shape around the point that the earlier probes moved the centre to. *)
Theorem C148_rejected_partial :
  forall (O : Type) n omega p_update J OI acc keep max_it tol bmax_it btol
         w (o : O) s lo hi tr st' u info,
  level_oracle n omega p_update J OI acc keep -> ell_wf s -> e_n s = n -> J o ->
  bsearch_R (bis_omega Rltb omega p_update max_it tol) bmax_it btol (w, o, s) (lo, hi)
    = Ok (tr, st', (u, info)) ->
  forall tr1 t tr2, tr = tr1 ++ (t, false) :: tr2 ->
  exists w1 o1 s1 lo1 hi1,
     (* the state in which the earlier probes tr1 left the arrays, the oracle and self.S *)
     bs_replay (bis_omega Rltb omega p_update max_it tol) (w, o, s) lo hi tr1 (w1, o1, s1) lo1 hi1 /\
     e_n s1 = e_n s /\ e_xc s1 = e_xc s /\ e_Q s1 = e_Q s /\ e_kappa s1 = e_kappa s /\
     exists c p trf o2 w2 c2 info',
     ell_copy s1 = Ok c /\ p_update o1 t = Ok p /\
     cutting_plane_feas ell_space Rltb omega max_it tol p (w1, c) = Ok (trf, o2, (w2, c2), info') /\
     feasible info' = false /\
     (cstatus info' = nosoln -> forall z, mem_ell (w1, s1) z -> ~ keep t z) /\
     (cstatus info' <> nosoln -> forall z, mem_ell (w1, s1) z -> keep t z -> mem_ell (w2, c2) z).
Proof.
  intros * HL Hw Hn Ho H. unfold bsearch_R in H.
  apply bsearch_spec in H as (l & Hr & _ & Hf & _).
  destruct (bis_replay _ _ _ _ _ _ _ _ _ _ _ _ _ _ _ _ HL Hr _ _ _ eq_refl Hw Hn Ho) as (_ & _ & H3).
  exact H3.
Qed.
Print Assumptions C148_rejected_partial.

(** *** What goes wrong with rejected values *)
Lemma scalar_nosoln w (e : ell R) g b : 0 <= e_kappa e * bf (e_n e) (e_Q e) g g ->
  sqrt (e_kappa e * bf (e_n e) (e_Q e) g g) < b ->
  ell_update (w, e) (g, BScalar b) = Ok ((w, e), (nosoln, e_kappa e * bf (e_n e) (e_Q e) g g)).
Proof.
  intros HT Hb. cbn [ell_update].
  change (nmul (e_kappa e) (ndot (e_n e) g (mv (e_n e) (e_Q e) g))) with (e_kappa e * bf (e_n e) (e_Q e) g g).
  cbn [calc_ll]. unfold calc_dc. rewrite rsqrt_ok by assumption. cbn [bind].
  change (nltb ?a ?b) with (Rltb a b). change (nsub ?a ?b) with (a - b). change (@nzero R RNum) with 0.
  destruct (Rltb _ 0) eqn:B; [reflexivity|]. apply Rltb_false in B. lra.
Qed.

(** The unit disc after the cut x0 <= -1/2. *)
Lemma half_cut : exists w' e', ell_update (zmem, ball2) (ex, BScalar (1 / 2)) = Ok ((w', e'), (success, 1)) /\
  w' 0%nat 0%nat = - (2 / 3) /\ e_xc e' = 0%nat /\ e_kappa e' * bf (e_n e') (e_Q e') ex ex = 1 / 9.
Proof.
  assert (Hom : bf 2 eye ex ex = 1) by (rewrite eye_bf; unfold dot, ex; cbn; ring).
  assert (HT : e_kappa ball2 * bf (e_n ball2) (e_Q ball2) ex ex = 1) by (cbn [e_kappa e_n e_Q ball2]; rewrite Hom; ring).
  destruct (ell_update_total zmem ball2 ex (BScalar (1 / 2)) ball2_proper ex_nonzero) as [Hok _]; [discriminate|].
  cbn zeta in Hok. rewrite HT in Hok.
  destruct Hok as ([[w' e'] [s q]] & Hu).
  { cbn; rewrite ?sqrt_1; unfold dc_fault; rewrite ?sqrt_1; lra. }
  pose proof Hu as Hu'.
  apply ell_update_spec in Hu as (Eq & Hq & Hc); [|apply ball2_proper].
  rewrite HT in Eq. subst q. exists w', e'.
  destruct Hc as [(-> & -> & Hst)|(-> & _ & rho & sigma & delta & Hst & -> & ->)].
  { exfalso. destruct s; cbn in Hst; rewrite ?sqrt_1 in Hst; lra. }
  split; [assumption|].
  assert (Ex : mem_set zmem (e_xc ball2) (new_xc ball2 (zmem (e_xc ball2)) ex rho) 0%nat 0%nat = - rho).
  { unfold mem_set, new_xc. cbn [e_xc ball2 Nat.eqb e_n e_Q Nat.ltb Nat.leb]. rewrite Hom.
    unfold mvr, dot, ex, eye, zmem; cbn. field. }
  rewrite Ex. cbn [new_e ball2 e_nodefer ell_set_kappa ell_set_Q e_xc e_kappa e_n e_Q].
  cbn in Hst. rewrite ?sqrt_1 in Hst. unfold dc_formula in Hst. rewrite ?sqrt_1 in Hst.
  destruct Hst as (_ & [(X & _)|(_ & _ & _ & Er & Es & Ed)]); [lra|].
  assert (rho = 2 / 3) by lra. subst rho.
  assert (sigma = 8 / 9) by (rewrite Es; field).
  assert (delta = 1) by (rewrite Ed; field).
  split; [lra|]. split; [reflexivity|].
  assert (Eb : bf 2 (new_Q ball2 ex sigma) ex ex = 1 - sigma).
  { unfold new_Q. cbn [e_n e_Q ball2]. rewrite Hom. unfold bf, dot, mvr, dot, ex, eye; cbn. field. }
  rewrite Eb. subst sigma delta. field.
Qed.

(** For t < th there is no solution (any cut is valid), for t >= th the half plane x0 >= c. *)
Definition lev_omega (th c : R) (o : R) (x : nat -> R) : res (R * option (cut R)) :=
  if Rltb o th then
    if Rltb (- (1 / 2)) (x 0%nat) then Ok (o, Some (ex, BScalar (1 / 2))) else Ok (o, Some (ex, BScalar 10))
  else if Rltb (x 0%nat) c then Ok (o, Some ((fun k => - ex k), BScalar (c - x 0%nat)))
  else Ok (o, None).
Definition lev_update (o : R) (t : R) : res R := Ok t.
Definition lev_sol (th c t : R) (z : nat -> R) : Prop := th <= t /\ c <= z 0%nat.
Lemma lev_level th c :
  level_oracle 2 (lev_omega th c) lev_update (fun _ => True) (fun t o => o = t) (lev_sol th c) (lev_sol th c).
Proof.
  split; [|split].
  - intros o t o1 _ H. injection H as <-. reflexivity.
  - trivial.
  - intros t o x o' a -> H. unfold lev_omega in H.
    destruct (Rltb t th) eqn:B1.
    { apply Rltb_true in B1. destruct (Rltb _ _); injection H as <- <-; (split; [reflexivity|]);
        intros z [Hz _]; lra. }
    apply Rltb_false in B1. destruct (Rltb (x 0%nat) _) eqn:B2; injection H as <- <-; (split; [reflexivity|]).
    + intros z [_ Hz]. unfold sat_cut, dot, ex; cbn. lra.
    + apply Rltb_false in B2. split; lra.
Qed.

(** a probe t < th: two cuts, the second one proves the disc empty; the centre has moved *)
Lemma lev_inner1 th c t k : t < th -> exists w1 c1 tr,
  cutting_plane_feas ell_space Rltb (lev_omega th c) (S (S k)) opt_tol t (zmem, ball2)
    = Ok (tr, t, (w1, c1), {| feasible := false; num_iters := 2; cstatus := nosoln |}) /\
  w1 0%nat 0%nat = - (2 / 3).
Proof.
  intros Ht. destruct half_cut as (w' & e' & Hu & Hx & Exc & HT).
  unfold cutting_plane_feas. cbn [feas_loop]. unfold lev_omega at 1, centre at 1 2.
  cbn [ell_space sp_deref sp_xc fst snd e_xc ball2]. fold ball2. change (zmem 0%nat 0%nat) with 0.
  rewrite (proj2 (Rltb_true t th)) by lra.
  rewrite (proj2 (Rltb_true (- (1 / 2)) 0)) by lra. cbn [bind].
  change (sp_update ell_space) with (ell_update (A := R)). rewrite Hu. cbn [bind status_eqb negb].
  unfold opt_tol at 1.
  rewrite (proj2 (Rltb_false 1 (1 / 100000000))) by lra.
  unfold lev_omega at 1, centre at 1 2. cbn [ell_space sp_deref sp_xc fst snd]. rewrite Exc, Hx.
  rewrite (proj2 (Rltb_true t th)) by lra.
  rewrite (proj2 (Rltb_false (- (1 / 2)) (- (2 / 3)))) by lra. cbn [bind].
  change (sp_update ell_space) with (ell_update (A := R)).
  rewrite scalar_nosoln; rewrite ?HT; [|lra|].
  - cbn [bind status_eqb negb]. exists w', e'. eexists. split; [reflexivity|assumption].
  - apply Rle_lt_trans with (sqrt 1); [apply sqrt_le_1; lra|rewrite sqrt_1; lra].
Qed.
(** a probe t >= th from the moved centre: the half plane is out of reach *)
Lemma lev_inner2 th c t k (w1 : memory R) : th <= t -> 1 / 2 <= c -> w1 0%nat 0%nat = - (2 / 3) -> exists tr,
  cutting_plane_feas ell_space Rltb (lev_omega th c) (S (S k)) opt_tol t (w1, ball2)
    = Ok (tr, t, (w1, ball2), {| feasible := false; num_iters := 1; cstatus := nosoln |}).
Proof.
  intros Ht Hc Hx. unfold cutting_plane_feas. remember (S k) as k' eqn:Ek. cbn [feas_loop].
  unfold lev_omega at 1, centre at 1 2.
  cbn [ell_space sp_deref sp_xc fst snd e_xc ball2]. fold ball2. rewrite Hx.
  rewrite (proj2 (Rltb_false t th)) by lra.
  rewrite (proj2 (Rltb_true (- (2 / 3)) c)) by lra. cbn [bind].
  change (sp_update ell_space) with (ell_update (A := R)).
  assert (HT : e_kappa ball2 * bf (e_n ball2) (e_Q ball2) (fun k => - ex k) (fun k => - ex k) = 1).
  { cbn [e_kappa e_n e_Q ball2]. rewrite eye_bf. unfold dot, ex; cbn. ring. }
  assert (Hcx : centre ell_space (w1, ball2) 0%nat = - (2 / 3)) by exact Hx.
  rewrite scalar_nosoln; rewrite ?HT, ?sqrt_1, ?Hcx; [|lra|lra].
  cbn [bind status_eqb negb]. eexists. reflexivity.
Qed.
(** a probe t >= th from the centre 0 of the disc, when 0 is a solution *)
Lemma lev_inner3 th c t k : th <= t -> c <= 0 ->
  cutting_plane_feas ell_space Rltb (lev_omega th c) (S (S k)) opt_tol t (zmem, ball2)
    = Ok ([(centre ell_space (zmem, ball2), None)], t, (zmem, ball2),
          {| feasible := true; num_iters := 1; cstatus := success |}).
Proof.
  intros Ht Hc. unfold cutting_plane_feas. remember (S k) as k' eqn:Ek. cbn [feas_loop].
  unfold lev_omega at 1, centre at 1 2.
  cbn [ell_space sp_deref sp_xc fst snd e_xc ball2]. fold ball2. change (zmem 0%nat 0%nat) with 0.
  rewrite (proj2 (Rltb_false t th)) by lra.
  rewrite (proj2 (Rltb_false 0 c)) by lra. reflexivity.
Qed.
Lemma lev_run k : exists w1 tr1 tr2 c1,
  cutting_plane_feas ell_space Rltb (lev_omega (3 / 4) (1 / 2)) (S (S k)) opt_tol (1 / 2) (zmem, ball2)
    = Ok (tr1, 1 / 2, (w1, c1), {| feasible := false; num_iters := 2; cstatus := nosoln |}) /\
  cutting_plane_feas ell_space Rltb (lev_omega (3 / 4) (1 / 2)) (S (S k)) opt_tol (3 / 4) (w1, ball2)
    = Ok (tr2, 3 / 4, (w1, ball2), {| feasible := false; num_iters := 1; cstatus := nosoln |}) /\
  bsearch_R (bis_omega Rltb (lev_omega (3 / 4) (1 / 2)) lev_update (S (S k)) opt_tol) 3 (1 / 5)
      (zmem, 0, ball2) (0, 1)
    = Ok ([(1 / 2, false); (3 / 4, false)], (w1, 3 / 4, ball2),
          (1, {| feasible := false; num_iters := 2; cstatus := smallenough |})).
Proof.
  destruct (lev_inner1 (3 / 4) (1 / 2) (1 / 2) k) as (w1 & c1 & tr1 & H1 & Hx); [lra|].
  destruct (lev_inner2 (3 / 4) (1 / 2) (3 / 4) k w1) as (tr2 & H2); [lra|lra|assumption|].
  exists w1, tr1, tr2, c1. split; [exact H1|]. split; [exact H2|].
  assert (P1 : bis_omega Rltb (lev_omega (3 / 4) (1 / 2)) lev_update (S (S k)) opt_tol (zmem, 0, ball2) (1 / 2)
               = Ok ((w1, 1 / 2, ball2), false)).
  { unfold bis_omega, ba_call, ell_copy_w. rewrite ball2_copy. cbn [bind lev_update]. rewrite H1. reflexivity. }
  assert (P2 : bis_omega Rltb (lev_omega (3 / 4) (1 / 2)) lev_update (S (S k)) opt_tol (w1, 1 / 2, ball2) (3 / 4)
               = Ok ((w1, 3 / 4, ball2), false)).
  { unfold bis_omega, ba_call, ell_copy_w. rewrite ball2_copy. cbn [bind lev_update]. rewrite H2. reflexivity. }
  unfold bsearch_R. cbn [bsearch bs_loop].
  rewrite (proj2 (Rltb_false ((1 - 0) / 2) (1 / 5))) by lra.
  replace (0 + (1 - 0) / 2) with (1 / 2) by field.
  rewrite P1. cbn [bind].
  rewrite (proj2 (Rltb_false ((1 - 1 / 2) / 2) (1 / 5))) by lra.
  replace (1 / 2 + (1 - 1 / 2) / 2) with (3 / 4) by field.
  rewrite P2. cbn [bind].
  rewrite (proj2 (Rltb_true ((1 - 3 / 4) / 2) (1 / 5))) by lra.
  assert (E : Req_bool 1 1 = true) by (apply Reqb_true; reflexivity). rewrite E. reflexivity.
Qed.

(** Every rejection of the run was conclusive: the inner run ended with nosoln. *)
Definition conclusive {O} omega p_update max_it tol w (o : O) s lo hi (tr : list (R * bool)) : Prop :=
  forall tr1 t tr2 w1 o1 s1 lo1 hi1,
  tr = tr1 ++ (t, false) :: tr2 ->
  bs_replay (bis_omega Rltb omega p_update max_it tol) (w, o, s) lo hi tr1 (w1, o1, s1) lo1 hi1 ->
  exists c p trf o2 st2 info, ell_copy s1 = Ok c /\ p_update o1 t = Ok p /\
    cutting_plane_feas ell_space Rltb omega max_it tol p (w1, c) = Ok (trf, o2, st2, info) /\
    cstatus info = nosoln.
Theorem C148_rejected_refuted :
  ~ (forall (O : Type) n omega p_update J OI acc keep max_it tol bmax_it btol
       w (o : O) s lo hi tr st' u info,
     level_oracle n omega p_update J OI acc keep ->
     (forall t t' z, t <= t' -> keep t z -> keep t' z) ->
     ell_proper s -> e_n s = n -> J o ->
     bsearch_R (bis_omega Rltb omega p_update max_it tol) bmax_it btol (w, o, s) (lo, hi)
       = Ok (tr, st', (u, info)) ->
     conclusive omega p_update max_it tol w o s lo hi tr ->
     forall t, In (t, false) tr -> forall z, mem_ell (w, s) z -> ~ keep t z).
Proof.
  intros H. destruct (lev_run 1998) as (w1 & tr1 & tr2 & c1 & H1 & H2 & Hr).
  refine (H R 2%nat (lev_omega (3 / 4) (1 / 2)) lev_update (fun _ => True) (fun t o => o = t)
    _ _ 2000%nat opt_tol 3%nat (1 / 5) zmem 0 ball2 0 1 _ _ _ _ (lev_level _ _) _ ball2_proper eq_refl I Hr _
    (3 / 4) (or_intror (or_introl eq_refl)) (fun k => 3 / 4 * ex k) _ _).
  - intros t t' z Ht [Z1 Z2]. split; lra.
  - intros tra t trb wa oa sa lo1 hi1 E Hre. destruct tra as [|ev tra].
    + injection E as <- <-. inversion Hre; subst. exists ball2, (1 / 2).
      do 4 eexists. split; [exact ball2_copy|]. split; [reflexivity|]. split; [exact H1|reflexivity].
    + inversion E as [[E1 E2]]. subst ev. destruct tra as [|ev tra].
      * injection E2 as <- <-. inversion Hre as [| |? ? ? ? st1 ? ? ? ? Hp Hre1]; subst.
        inversion Hre1; subst. unfold bis_omega, ba_call, ell_copy_w in Hp.
        rewrite ball2_copy in Hp. cbn [bind lev_update] in Hp. rewrite H1 in Hp. cbn [bind feasible] in Hp.
        injection Hp as <- <- <-. exists ball2, (3 / 4).
        do 4 eexists. split; [exact ball2_copy|]. split; [reflexivity|]. split; [exact H2|reflexivity].
      * destruct tra; discriminate.
  - apply ball2_mem. unfold ex; cbn. lra.
  - split; unfold ex; cbn; lra.
Qed.
Print Assumptions C148_rejected_refuted.

(** Claim "when feasible = True the adaptor's x_best solves the problem of the returned value":
    false, the rejected probes that follow move x_best. *)
Theorem C148_x_best_refuted :
  ~ (forall (O : Type) n omega p_update J OI acc keep max_it tol bmax_it btol
       w (o : O) s lo hi tr w' o' s' u info,
     level_oracle n omega p_update J OI acc keep ->
     (forall t t' z, t <= t' -> keep t z -> keep t' z) ->
     ell_proper s -> e_n s = n -> J o ->
     bsearch_R (bis_omega Rltb omega p_update max_it tol) bmax_it btol (w, o, s) (lo, hi)
       = Ok (tr, (w', o', s'), (u, info)) ->
     feasible info = true -> acc u (ba_x_best ell_space w' s')).
Proof.
  intros H. assert (H1 := lev_inner3 (1 / 2) (- (1 / 2)) (1 / 2) 1998 ltac:(lra) ltac:(lra)).
  destruct (lev_inner1 (1 / 2) (- (1 / 2)) (1 / 4) 1998) as (w1 & c1 & tr1 & H2 & Hx); [lra|].
  assert (P1 : bis_omega Rltb (lev_omega (1 / 2) (- (1 / 2))) lev_update 2000 opt_tol (zmem, 0, ball2) (1 / 2)
               = Ok ((zmem, 1 / 2, ball2), true)).
  { unfold bis_omega, ba_call, ell_copy_w. rewrite ball2_copy. cbn [bind lev_update]. rewrite H1. reflexivity. }
  assert (P2 : bis_omega Rltb (lev_omega (1 / 2) (- (1 / 2))) lev_update 2000 opt_tol (zmem, 1 / 2, ball2) (1 / 4)
               = Ok ((w1, 1 / 4, ball2), false)).
  { unfold bis_omega, ba_call, ell_copy_w. rewrite ball2_copy. cbn [bind lev_update]. rewrite H2. reflexivity. }
  assert (Hr : bsearch_R (bis_omega Rltb (lev_omega (1 / 2) (- (1 / 2))) lev_update 2000 opt_tol) 3 (1 / 5)
      (zmem, 0, ball2) (0, 1)
    = Ok ([(1 / 2, true); (1 / 4, false)], (w1, 1 / 4, ball2),
          (1 / 2, {| feasible := true; num_iters := 2; cstatus := smallenough |}))).
  { unfold bsearch_R. cbn [bsearch bs_loop].
    rewrite (proj2 (Rltb_false ((1 - 0) / 2) (1 / 5))) by lra.
    replace (0 + (1 - 0) / 2) with (1 / 2) by field.
    rewrite P1. cbn [bind].
    rewrite (proj2 (Rltb_false ((1 / 2 - 0) / 2) (1 / 5))) by lra.
    replace (0 + (1 / 2 - 0) / 2) with (1 / 4) by field.
    rewrite P2. cbn [bind].
    rewrite (proj2 (Rltb_true ((1 / 2 - 1 / 4) / 2) (1 / 5))) by lra.
    assert (E : Req_bool (1 / 2) 1 = false) by (apply Reqb_false; lra). rewrite E. reflexivity. }
  assert (X : lev_sol (1 / 2) (- (1 / 2)) (1 / 2) (ba_x_best ell_space w1 ball2)).
  { refine (H R 2%nat _ lev_update (fun _ => True) (fun t o => o = t)
      _ _ 2000%nat opt_tol 3%nat (1 / 5) zmem 0 ball2 0 1 _ _ _ _ _ _ (lev_level _ _) _ ball2_proper eq_refl I Hr _).
    - intros t t' z Ht [Z1 Z2]. split; lra.
    - reflexivity. }
  destruct X as [_ X]. unfold ba_x_best, centre in X. cbn in X. rewrite Hx in X. lra.
Qed.
Print Assumptions C148_x_best_refuted.
Example C145_C148_hypotheses_met : exists w1,
  level_oracle 2 (lev_omega (3 / 4) (1 / 2)) lev_update (fun _ => True) (fun t o => o = t)
    (lev_sol (3 / 4) (1 / 2)) (lev_sol (3 / 4) (1 / 2)) /\ ell_wf ball2 /\ e_n ball2 = 2%nat /\
  bsearch_R (bis_omega Rltb (lev_omega (3 / 4) (1 / 2)) lev_update 2000 opt_tol) 3 (1 / 5)
      (zmem, 0, ball2) (0, 1)
    = Ok ([] ++ (1 / 2, false) :: [(3 / 4, false)], (w1, 3 / 4, ball2),
          (1, {| feasible := false; num_iters := 2; cstatus := smallenough |})).
Proof.
  destruct (lev_run 1998) as (w1 & tr1 & tr2 & c1 & H1 & H2 & Hr). exists w1.
  split; [apply lev_level|]. split; [apply ball2_proper|]. split; [reflexivity|]. exact Hr.
Qed.

(** ** C146: least squares estimation by bisection *)
Lemma qmi_level m F F0 : all_sym m F ->
  level_oracle (length F) (qmi_omega F F0 m m (length F)) qmi_p_update
    (fun o => oracle_chol m (snd o)) (fun t o => q_t (fst o) = Some t /\ oracle_chol m (snd o))
    (fun t x => pd m (qmi_mat m F0 F t x)) (fun t x => psd m (qmi_mat m F0 F t x)).
Proof.
  intros HF. split; [|split].
  - intros [q Q] t o1 HQ H. injection H as <-. split; [reflexivity|exact HQ].
  - tauto.
  - intros t [q Q] x o' a [Ht HQ] H. cbn [fst snd] in *. unfold qmi_omega in H.
    apply bind_ok in H as ([[q1 Q1] c] & Hc & H). cbn [fst snd] in Hc. injection H as <- <-.
    destruct (C36_qmi_decides m m F F0 q Q x t Ht HQ (or_intror eq_refl)) as (q2 & Q2 & c2 & H2 & T2 & O2 & D2).
    rewrite Hc in H2. injection H2 as <- <- <-. split; [split; assumption|].
    destruct c as [[g ep]|]; cbn [to_cut].
    + intros z Hz. apply (proj2 (C37_qmi_cut_valid_symmetric_partial m F F0 q q1 Q Q1 x t g ep HF Ht HQ Hc) z Hz).
    + apply D2. reflexivity.
Qed.

Lemma bs_replay_bounds {O} (omega : O -> R -> res (O * bool)) tol o lo hi tr o' l u :
  0 <= tol -> bs_replay omega o lo hi tr o' l u ->
  mids (fun u l => (u - l) / 2) Rplus Rltb tol lo hi tr -> lo <= hi ->
  lo <= l <= u /\ u <= hi.
Proof.
  intros Ht H. induction H as [o lo hi|o lo hi t o1 tr o' lo' hi' Hp Hr IH|o lo hi t o1 tr o' lo' hi' Hp Hr IH];
    intros Hm Hl; [lra| |]; cbn [mids] in Hm; destruct Hm as (E & B & Hm); apply Rltb_false in B.
  - destruct (IH Hm ltac:(lra)). lra.
  - destruct (IH Hm ltac:(lra)). lra.
Qed.

Theorem C146_lsq_value_attained :
  forall max_it tol m Y F F0 (o : qmi R * chol R) x k b u,
  0 <= tol -> all_sym m F -> oracle_chol m (snd o) ->
  lsq_corr_core max_it tol m Y (length F) F F0 o = Ok (x, k, b, u) ->
  let Y2 := rsum m (fun i => rsum m (fun j => Y i j * Y i j)) in
  (k <= max_it)%nat /\ 0 <= u <= Y2 /\ (b = true <-> u < Y2) /\
  (b = true -> exists z, pd m (qmi_mat m F0 F u z)).
Proof.
  intros max_it tol m Y F F0 o x k b u Ht HF Ho H Y2. unfold lsq_corr_core in H.
  apply bind_ok in H as (x0 & Hx0 & H). apply bind_ok in H as (E & HE & H).
  apply bind_ok in H as ([[tr [[w' o'] s']] [u1 info]] & Hb & H). injection H as <- <- <- <-.
  assert (Hn : (2 <= length F)%nat).
  { unfold unit_start in Hx0. destruct (length F) as [|[|n]]; [discriminate| |lia].
    rewrite ell_init_1 in HE. discriminate. }
  destruct (C26_construction (VScalar 256) (length F) 0%nat (fun _ => x0) Hn) as (E' & HE' & En & _ & _ & Hw & _).
  rewrite HE in HE'. injection HE' as <-. specialize (Hw ltac:(lra)).
  assert (HY : fro2 m Y = Y2).
  { unfold fro2. rewrite psum_rsum.
    assert (Es : rsum m (fun i => psum m (fun j => Y i j * Y i j)) = Y2).
    { apply rsum_ext. intros i _. apply psum_rsum. }
    rewrite Es. apply sqrt_sqrt. apply rsum_nonneg. intros i _. apply rsum_nonneg. intros j _. apply Rle_0_sqr. }
  rewrite HY in Hb.
  destruct (C145_value_attained _ _ _ _ _ _ _ _ _ _ _ _ _ _ _ _ _ _ _ _ _ (qmi_level m F F0 HF) Hw En Ho Hb)
    as [Hv _].
  unfold bsearch_R in Hb. apply bsearch_spec in Hb as (l & Hr & Hm & Hf & Hst).
  assert (H0 : 0 <= Y2) by (rewrite <- HY; unfold fro2; apply Rle_0_sqr).
  destruct (bs_replay_bounds _ _ _ _ _ _ _ _ _ Ht Hr Hm H0) as [B1 B2].
  split; [destruct Hst as [(_ & _ & -> & X)|(_ & X & Y1)]; lia|].
  split; [lra|]. split; [|exact Hv].
  rewrite Hf. destruct (Req_bool u1 Y2) eqn:Eq.
  - apply Reqb_true in Eq. cbn. split; [discriminate|lra].
  - apply Reqb_false in Eq. cbn. split; [lra|reflexivity].
Qed.
Print Assumptions C146_lsq_value_attained.
(** The call is a bisection of [0, |Y|^2] over the ball of radius 16 about (1, 0, ..., 0), and the
    returned point is the centre array as the last probe left it. *)
Theorem C146_lsq_run :
  forall max_it tol m Y F F0 (o : qmi R * chol R) x k b u,
  lsq_corr_core max_it tol m Y (length F) F F0 o = Ok (x, k, b, u) ->
  let e0 k := if Nat.eqb k 0 then 1 else 0 in
  let Y2 := rsum m (fun i => rsum m (fun j => Y i j * Y i j)) in
  exists E tr (w' : memory R) o' s' info,
    (forall z, mem_ell ((fun _ => e0), E) z <-> dot (length F) (fun i => z i - e0 i) (fun i => z i - e0 i) <= 256) /\
    bsearch_R (bis_omega Rltb (qmi_omega F F0 m m (length F)) qmi_p_update max_it tol) max_it tol ((fun _ => e0), o, E) (0, Y2)
      = Ok (tr, (w', o', s'), (u, info)) /\
    x = w' (e_xc s') /\ k = num_iters info /\ b = feasible info.
Proof.
  intros max_it tol m Y F F0 o x k b u H e0 Y2. unfold lsq_corr_core in H.
  apply bind_ok in H as (x0 & Hx0 & H). apply bind_ok in H as (E & HE & H).
  apply bind_ok in H as ([[tr [[w' o'] s']] [u1 info]] & Hb & H). injection H as <- <- <- <-.
  assert (Hn : (2 <= length F)%nat).
  { unfold unit_start in Hx0. destruct (length F) as [|[|n]]; [discriminate| |lia].
    rewrite ell_init_1 in HE. discriminate. }
  assert (Ex : x0 = e0).
  { unfold unit_start in Hx0. destruct (Nat.eqb (length F) 0); [discriminate|]. injection Hx0 as <-. reflexivity. }
  subst x0.
  destruct (C26_construction (VScalar 256) (length F) 0%nat (fun _ => e0) Hn) as (E' & HE' & En & _ & Hm & _).
  rewrite HE in HE'. injection HE' as <-.
  assert (HY : fro2 m Y = Y2).
  { unfold fro2. rewrite psum_rsum.
    assert (Es : rsum m (fun i => psum m (fun j => Y i j * Y i j)) = Y2).
    { apply rsum_ext. intros i _. apply psum_rsum. }
    rewrite Es. apply sqrt_sqrt. apply rsum_nonneg. intros i _. apply rsum_nonneg. intros j _. apply Rle_0_sqr. }
  rewrite HY in Hb. exists E, tr, w', o', s', info. split; [exact Hm|]. split; [exact Hb|].
  split; [reflexivity|]. split; reflexivity.
Qed.
Print Assumptions C146_lsq_run.
(** Y = F0 = F_1 = c I with |Y|^2 = 3e-8: one probe, t = 1.5e-8, at which the start (1, 0) fits. *)
Definition exc : R := sqrt (3 / 200000000).
Lemma exc_sq : exc * exc = 3 / 200000000.
Proof. apply sqrt_sqrt. lra. Qed.
Example C146_hypotheses_met : forall k, exists x,
  all_sym 2 [mat22 exc 0 exc; mat22 0 1 0] /\ oracle_chol 2 (chol_init 2) /\
  lsq_corr_core (S (S k)) opt_tol 2 (mat22 exc 0 exc) 2 [mat22 exc 0 exc; mat22 0 1 0] (mat22 exc 0 exc) (qmi_init, chol_init 2)
    = Ok (x, 1%nat, true, 3 / 200000000) /\ x 0%nat = 1 /\ x 1%nat = 0.
Proof.
  intros k0. set (F := [mat22 exc 0 exc; mat22 0 1 0]). set (F0 := mat22 exc 0 exc).
  assert (HF : all_sym 2 F) by (intros M [<-|[<-|[]]]; apply mat22_sym).
  unfold lsq_corr_core. cbn [unit_start Nat.eqb bind].
  set (x0 := fun k : nat => if Nat.eqb k 0 then none else nzero).
  destruct (ell_init_ok (VScalar 256) 2 0%nat) as (E & HE & Hc & En & Ex & Ep & Ed & Ek & EQ); [lia|].
  rewrite HE. cbn [bind].
  assert (HY : fro2 2 F0 = 3 / 100000000).
  { unfold fro2. rewrite sqrt_sqrt.
    - unfold F0, mat22; cbn. pose proof exc_sq. lra.
    - unfold F0, mat22; cbn. pose proof (Rle_0_sqr exc) as X. unfold Rsqr in X. lra. }
  rewrite HY.
  assert (Hcp : exists c, ell_copy E = Ok c /\ e_xc c = 0%nat).
  { unfold ell_copy. rewrite Ek, En, Ex, HE. cbn [bind]. eexists. split; [reflexivity|exact Ex]. }
  destruct Hcp as (c & Hcp & Exc).
  set (t := 3 / 200000000).
  destruct (C36_qmi_decides 2 2 F F0 (qmi_update qmi_init t) (chol_init 2) x0 t eq_refl
    (conj eq_refl eq_refl) (or_intror eq_refl)) as (q' & Q' & a & Hq & _ & _ & Hd).
  assert (a = None) as ->.
  { apply Hd. intros v (k & Hk & Hv).
    assert (Eb : bf 2 (qmi_mat 2 F0 F t x0) v v = t * (v 0%nat * v 0%nat + v 1%nat * v 1%nat)).
    { unfold bf, dot, mvr, dot, qmi_mat, aff_mat, lin_mat, F, F0, mat22, x0; cbn. ring. }
    rewrite Eb. apply Rmult_lt_0_compat; [unfold t; lra|].
    assert (0 <= v 0%nat * v 0%nat) by apply Rle_0_sqr. assert (0 <= v 1%nat * v 1%nat) by apply Rle_0_sqr.
    assert (0 < v k * v k) by nra. destruct k as [|[|k]]; [| |lia]; lra. }
  assert (Hf : cutting_plane_feas ell_space Rltb (qmi_omega F F0 2 2 2) (S (S k0)) opt_tol
     (qmi_update qmi_init t, chol_init 2) ((fun _ => x0) : memory R, c)
     = Ok ([(x0, None)], (q', Q'), ((fun _ => x0) : memory R, c), {| feasible := true; num_iters := 1; cstatus := success |})).
  { unfold cutting_plane_feas. remember (S k0) as k1 eqn:Ek1. cbn [feas_loop].
    unfold qmi_omega at 1, centre at 1 2. cbn [ell_space sp_deref sp_xc fst snd].
    change (length F) with 2%nat in Hq. rewrite Hq. reflexivity. }
  assert (P1 : bis_omega Rltb (qmi_omega F F0 2 2 2) qmi_p_update (S (S k0)) opt_tol
     ((fun _ => x0) : memory R, (qmi_init, chol_init 2), E) t
     = Ok (((fun _ => x0) : memory R, (q', Q'), ell_set_xc E 0%nat), true)).
  { unfold bis_omega, ba_call, ell_copy_w. rewrite Hcp. cbn [bind qmi_p_update fst snd]. rewrite Hf.
    cbn [bind feasible ell_space sp_xc snd]. rewrite Exc. reflexivity. }
  assert (Hr : bsearch_R (bis_omega Rltb (qmi_omega F F0 2 2 2) qmi_p_update (S (S k0)) opt_tol) (S (S k0)) opt_tol
     ((fun _ => x0) : memory R, (qmi_init, chol_init 2), E) (0, 3 / 100000000)
     = Ok ([(t, true)], ((fun _ => x0) : memory R, (q', Q'), ell_set_xc E 0%nat),
           (t, {| feasible := true; num_iters := 1; cstatus := smallenough |}))).
  { unfold bsearch_R. cbn [bsearch bs_loop].
    unfold opt_tol in *. rewrite (proj2 (Rltb_false ((3 / 100000000 - 0) / 2) (1 / 100000000))) by lra.
    replace (0 + (3 / 100000000 - 0) / 2) with t by (unfold t; field).
    rewrite P1. cbn [bind].
    rewrite (proj2 (Rltb_true ((t - 0) / 2) (1 / 100000000))) by (unfold t; lra).
    assert (Eq : Req_bool t (3 / 100000000) = false) by (apply Reqb_false; unfold t; lra).
    rewrite Eq. reflexivity. }
  exists x0. split; [exact HF|]. split; [split; reflexivity|]. split; [|split; reflexivity].
  match goal with |- context [bsearch_R ?a ?b ?c ?d ?e] => change (bsearch_R a b c d e) with
    (bsearch_R (bis_omega Rltb (qmi_omega F F0 2 2 2) qmi_p_update (S (S k0)) opt_tol) (S (S k0)) opt_tol
       ((fun _ => x0) : memory R, (qmi_init, chol_init 2), E) (0, 3 / 100000000)) end.
  rewrite Hr. cbn [bind num_iters feasible]. reflexivity.
Qed.

(** ** C147: the estimation functions based on cutting_plane_dc never report feasible = False *)
(** In every arithmetic, for every oracle [omega Sig] and all options: if the polynomial is
    returned then the oracle reported an improvement t' and feasible says whether t' differs from
    the initial float("inf"). *)
Theorem C147_mle_returns_only_improved :
  forall (A : Type) (N : Num A) (O : Type) ltb tneq
    (omega : list (nat -> nat -> A) -> O -> (nat -> A) -> A -> res (O * (cut A * option A)))
    max_it tol inf o n d s m p k b,
  corr_poly (poly_matrix n d s (Z.of_nat m)) m
    (fun Sig => mle_corr_core ltb tneq (omega Sig) max_it tol inf o m) = Ok (p, k, b) ->
  exists Sig x E tr o' st' l t' info ev,
    poly_matrix n d s (Z.of_nat m) = Ok Sig /\ (forall k, x k = if Nat.eqb k 0 then none else nzero) /\
    ell_init (VScalar (nofZ 50)) m 0%nat = Ok E /\
    cutting_plane_dc ell_space ltb tneq (omega Sig) max_it tol o ((fun _ => x), E) inf = Ok (tr, o', st', (Some l, t', info)) /\
    In ev tr /\ d_t1 ev = Some t' /\ k = length tr /\ b = tneq t' inf /\
    forall x, p x = corr_poly_eval m (fst st' l) x.
Proof.
  intros A N O ltb tneq omega max_it tol inf o n d s m p k b H. unfold corr_poly in H.
  apply bind_ok in H as (Sig & HS & H). apply bind_ok in H as ([[a k1] b1] & Hc & H).
  destruct a as [v|]; [|discriminate]. injection H as <- <- <-.
  unfold mle_corr_core in Hc. apply bind_ok in Hc as (x0 & Hx0 & Hc). unfold dc_core in Hc.
  apply bind_ok in Hc as (E & HE & Hc).
  apply bind_ok in Hc as ([[[tr o'] [w' e']] [[xb t'] info]] & Hd & Hc).
  destruct xb as [l|]; [|discriminate]. injection Hc as <- <- <-.
  destruct (C04_dc_last_improvement _ _ _ _ _ _ _ _ _ _ _ _ _ _ _ _ _ _ _ _ _ _ Hd)
    as (_ & [(_ & _ & X)|(tr1 & ev & tr2 & E1 & _ & E2 & _)] & Hf & Hn & _); [discriminate|].
  exists Sig, x0, E, tr, o', (w', e'), l, t', info, ev.
  split; [exact HS|]. split.
  { unfold unit_start in Hx0. destruct (Nat.eqb m 0); [discriminate|]. injection Hx0 as <-. reflexivity. }
  repeat (split; [assumption|]). split; [rewrite E1; apply in_or_app; right; left; reflexivity|]. auto.
Qed.
Print Assumptions C147_mle_returns_only_improved.
Theorem C147_lsq2_returns_only_improved :
  forall (A : Type) (N : Num A) (O : Type) ltb tneq
    (omega : list (nat -> nat -> A) -> O -> (nat -> A) -> A -> res (O * (cut A * option A)))
    max_it tol inf o n d s normY m p k b,
  corr_poly (poly_matrix n d s (Z.of_nat m)) m
    (fun Sig => lsq_corr_core2 ltb tneq (omega Sig) max_it tol inf o normY m) = Ok (p, k, b) ->
  exists Sig half v x E tr o' st' l t' info ev,
    let Y2 := nmul (nmul (nofZ 32) normY) normY in
    poly_matrix n d s (Z.of_nat m) = Ok Sig /\ ndiv Y2 (nofZ 2) = Ok half /\
    (forall k, v k = if Nat.eqb k m then nmul Y2 Y2 else nmul (nofZ 256) none) /\
    (forall k, x k = if Nat.eqb k m then half else if Nat.eqb k 0 then none else nzero) /\
    ell_init (VArray v) (m + 1) 0%nat = Ok E /\
    cutting_plane_dc ell_space ltb tneq (omega Sig) max_it tol o ((fun _ => x), E) inf = Ok (tr, o', st', (Some l, t', info)) /\
    In ev tr /\ d_t1 ev = Some t' /\ k = length tr /\ b = tneq t' inf /\
    forall x, p x = corr_poly_eval m (fst st' l) x.
Proof.
  intros A N O ltb tneq omega max_it tol inf o n d s normY m p k b H. unfold corr_poly in H.
  apply bind_ok in H as (Sig & HS & H). apply bind_ok in H as ([[a k1] b1] & Hc & H).
  destruct a as [v|]; [|discriminate]. injection H as <- <- <-.
  unfold lsq_corr_core2 in Hc. apply bind_ok in Hc as (half & Hh & Hc).
  apply bind_ok in Hc as ([[xb1 k2] b2] & Hc & Hc'). destruct xb1 as [v1|]; [|discriminate].
  injection Hc' as -> <- <-. unfold dc_core in Hc.
  apply bind_ok in Hc as (E & HE & Hc).
  apply bind_ok in Hc as ([[[tr o'] [w' e']] [[xb t'] info]] & Hd & Hc).
  destruct xb as [l|]; [|discriminate]. injection Hc as <- <- <-.
  destruct (C04_dc_last_improvement _ _ _ _ _ _ _ _ _ _ _ _ _ _ _ _ _ _ _ _ _ _ Hd)
    as (_ & [(_ & _ & X)|(tr1 & ev & tr2 & E1 & _ & E2 & _)] & Hf & Hn & _); [discriminate|].
  exists Sig, half, (lsq2_val normY m), (lsq2_x half m), E, tr, o', (w', e'), l, t', info, ev.
  cbv zeta. split; [assumption|]. split; [exact Hh|]. split; [reflexivity|]. split; [reflexivity|]. split; [exact HE|]. split; [exact Hd|].
  split; [rewrite E1; apply in_or_app; right; left; reflexivity|]. auto.
Qed.
Print Assumptions C147_lsq2_returns_only_improved.

(** When the run finds nothing the caller sees TypeError. *)
Theorem C147_nothing_found_raises :
  forall (A : Type) (N : Num A) (O : Type) ltb tneq
    (omega : list (nat -> nat -> A) -> O -> (nat -> A) -> A -> res (O * (cut A * option A)))
    max_it tol inf o n d s m x E Sig tr o' st' t' info,
  poly_matrix n d s (Z.of_nat m) = Ok Sig -> unit_start m = Ok x -> ell_init (VScalar (nofZ 50)) m 0%nat = Ok E ->
  cutting_plane_dc ell_space ltb tneq (omega Sig) max_it tol o ((fun _ => x), E) inf
    = Ok (tr, o', st', (None, t', info)) ->
  corr_poly (poly_matrix n d s (Z.of_nat m)) m
    (fun Sig => mle_corr_core ltb tneq (omega Sig) max_it tol inf o m) = Raise TypeError.
Proof.
  intros A N O ltb tneq omega max_it tol inf o n d s m x E Sig tr o' [w' e'] t' info HS Hx HE Hd.
  unfold corr_poly, mle_corr_core, dc_core. rewrite HS. cbn [bind]. rewrite Hx. cbn [bind]. rewrite HE. cbn [bind].
  rewrite Hd. reflexivity.
Qed.
Print Assumptions C147_nothing_found_raises.
Theorem C147_lsq2_nothing_found_raises :
  forall (A : Type) (N : Num A) (O : Type) ltb tneq
    (omega : list (nat -> nat -> A) -> O -> (nat -> A) -> A -> res (O * (cut A * option A)))
    max_it tol inf o n d s normY m half E Sig tr o' st' t' info,
  poly_matrix n d s (Z.of_nat m) = Ok Sig -> ndiv (lsq2_normY2 normY) (nofZ 2) = Ok half ->
  ell_init (VArray (lsq2_val normY m)) (m + 1) 0%nat = Ok E ->
  cutting_plane_dc ell_space ltb tneq (omega Sig) max_it tol o ((fun _ => lsq2_x half m), E) inf
    = Ok (tr, o', st', (None, t', info)) ->
  corr_poly (poly_matrix n d s (Z.of_nat m)) m
    (fun Sig => lsq_corr_core2 ltb tneq (omega Sig) max_it tol inf o normY m) = Raise TypeError /\
  lsq_corr_core2 ltb tneq (omega Sig) max_it tol inf o normY m = Raise TypeError.
Proof.
  intros A N O ltb tneq omega max_it tol inf o n d s normY m half E Sig tr o' [w' e'] t' info HS Hh HE Hd.
  assert (X : lsq_corr_core2 ltb tneq (omega Sig) max_it tol inf o normY m = Raise TypeError).
  { unfold lsq_corr_core2, dc_core. rewrite Hh. cbn [bind]. rewrite HE. cbn [bind]. rewrite Hd. reflexivity. }
  split; [|exact X]. unfold corr_poly. rewrite HS. cbn [bind]. rewrite X. reflexivity.
Qed.
Print Assumptions C147_lsq2_nothing_found_raises.

(** no basis function at all: x[0] = 1.0 on an empty array *)
Theorem C147_no_basis_raises :
  forall (A : Type) (N : Num A) (O : Type) ltb tneq (omega : O -> (nat -> A) -> A -> res (O * (cut A * option A))) max_it tol inf o,
  mle_corr_core ltb tneq omega max_it tol inf o 0 = Raise IndexError.
Proof. reflexivity. Qed.
Print Assumptions C147_no_basis_raises.
Theorem C146_no_basis_raises : forall max_it tol m Y F F0 o, lsq_corr_core max_it tol m Y 0 F F0 o = Raise IndexError.
Proof. reflexivity. Qed.
Print Assumptions C146_no_basis_raises.

(** Two sites at distance 1, m = 2; an oracle that reports t = 7 at once, and one that never does. *)
Definition rep_omega (r : option R) (Sig : list (nat -> nat -> R)) (o : unit) (x : nat -> R) (t : R)
  : res (unit * (cut R * option R)) := Ok (tt, ((ex, BScalar 0), r)).
Lemma rep_run r : exists Sig x E tr st' info,
  poly_matrix 2 1 (fun i _ => INR i) (Z.of_nat 2) = Ok Sig /\ unit_start 2 = Ok x /\
  ell_init (VScalar (nofZ 50)) 2 0%nat = Ok E /\
  cutting_plane_dc ell_space Rltb (fun a b => negb (Req_bool a b)) (rep_omega r Sig) 1 1 tt ((fun _ => x), E) 1000
  = Ok (tr, tt, st', (match r with Some _ => Some 0%nat | None => None end,
                      match r with Some t => t | None => 1000 end, info)).
Proof.
  destruct (C60_poly_matrix 2 1 (fun i _ => INR i) 2 ltac:(lia)) as (D & Sig & _ & HS & _).
  destruct (C26_construction (VScalar 50) 2 0%nat (fun _ _ => 0) (le_n _)) as (E & HE & En & _ & _ & _ & Hp).
  specialize (Hp ltac:(lra)).
  set (x := fun k : nat => if Nat.eqb k 0 then 1 else 0).
  destruct (ell_update_total (fun _ => x) E ex (BScalar 0) Hp) as [Hok _];
    [rewrite En; apply ex_nonzero|discriminate|].
  destruct Hok as ([[w' e'] [st q]] & Hu); [cbn; unfold dc_fault; lra|].
  assert (Exc : e_xc E = 0%nat).
  { destruct (ell_init_ok (VScalar 50) 2 0%nat) as (E2 & HE2 & _ & _ & X & _); [lia|].
    rewrite HE in HE2. injection HE2 as <-. exact X. }
  exists Sig, x, E. unfold cutting_plane_dc. cbn [dc_loop]. unfold rep_omega at 1. cbn [bind].
  change (sp_update ell_space) with (ell_update (A := R)).
  match goal with |- context [ell_update ?a ?c] =>
    replace (ell_update a c) with (Ok (w', e', (st, q))) by (symmetry; exact Hu) end.
  cbn [bind].
  destruct (negb (status_eqb st success)); [|destruct (Rltb q 1)]; cbn [bind];
    destruct r; cbn [sp_xc ell_space snd]; rewrite ?Exc;
    (do 3 eexists; split; [exact HS|]; split; [reflexivity|]; split; [exact HE|reflexivity]).
Qed.
Example C147_hypotheses_met :
  (exists p k, corr_poly (poly_matrix 2 1 (fun i _ => INR i) (Z.of_nat 2)) 2
    (fun Sig => mle_corr_core Rltb (fun a b => negb (Req_bool a b)) (rep_omega (Some 7) Sig) 1 1 1000 tt 2)
    = Ok (p, k, true)) /\
  corr_poly (poly_matrix 2 1 (fun i _ => INR i) (Z.of_nat 2)) 2
    (fun Sig => mle_corr_core Rltb (fun a b => negb (Req_bool a b)) (rep_omega None Sig) 1 1 1000 tt 2)
    = Raise TypeError.
Proof.
  split.
  - destruct (rep_run (Some 7)) as (Sig & x & E & tr & [w' e'] & info & HS & Hx & HE & Hd).
    unfold corr_poly, mle_corr_core, dc_core. rewrite HS. cbn [bind]. rewrite Hx. cbn [bind]. rewrite HE. cbn [bind].
    rewrite Hd. cbn [bind]. do 2 eexists.
    destruct (C04_dc_last_improvement _ _ _ _ _ _ _ _ _ _ _ _ _ _ _ _ _ _ _ _ _ _ Hd) as (_ & _ & Hf & _).
    assert (Eq : Req_bool 7 1000 = false) by (apply Reqb_false; lra). rewrite Eq in Hf. rewrite Hf. reflexivity.
  - destruct (rep_run None) as (Sig & x & E & tr & st' & info & HS & Hx & HE & Hd).
    eapply C147_nothing_found_raises; eassumption.
Qed.

(** C146 for the polynomial fit: all hypotheses on the matrices hold by construction. *)
Theorem C146_lsq_corr_poly :
  forall max_it tol N d s m Y p k b,
  0 <= tol ->
  corr_poly (poly_matrix N d s (Z.of_nat m)) m
    (fun Sig => ' (x, k, b, _) <- lsq_corr_core max_it tol N Y m Sig Y (qmi_init, chol_init N) ;; Ok (Some x, k, b))
    = Ok (p, k, b) ->
  (2 <= m)%nat /\
  (b = true -> exists Sig u z, poly_matrix N d s (Z.of_nat m) = Ok Sig /\
     u < rsum N (fun i => rsum N (fun j => Y i j * Y i j)) /\ pd N (qmi_mat N Y Sig u z)).
Proof.
  intros max_it tol N d s m Y p k b Ht H. unfold corr_poly in H.
  apply bind_ok in H as (Sig & HS & H). apply bind_ok in H as ([[a k1] b1] & Hc & H).
  destruct a as [v|]; [|discriminate]. injection H as <- <- <-.
  apply bind_ok in Hc as ([[[x k2] b2] u] & Hc & E). injection E as <- <- <-.
  assert (Hm : (2 <= m)%nat).
  { unfold lsq_corr_core, unit_start in Hc. destruct m as [|[|m]]; [discriminate| |lia].
    cbn [Nat.eqb bind] in Hc. rewrite ell_init_1 in Hc. discriminate. }
  split; [exact Hm|]. intros Hb.
  destruct (C60_poly_matrix N d s (Z.of_nat m) ltac:(lia)) as (D & Sig' & _ & HS' & Hl & Hsym & _).
  rewrite HS in HS'. injection HS' as <-. rewrite Nat2Z.id in Hl. rewrite <- Hl in Hc.
  destruct (C146_lsq_value_attained max_it tol N Y Sig Y (qmi_init, chol_init N) x k2 b2 u Ht Hsym (conj eq_refl eq_refl) Hc)
    as (_ & _ & H1 & H2).
  destruct (H2 Hb) as (z & Hz). exists Sig, u, z. split; [exact HS|]. split; [apply H1, Hb|exact Hz].
Qed.
Print Assumptions C146_lsq_corr_poly.
