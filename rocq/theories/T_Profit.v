(** Property theorems about the profit oracles (C46, C54-C56, C75-C78). *)
From Coq Require Import Reals Lra Psatz.
From Verif Require Import Base M_Drivers S_Drivers P_Drivers S_LinAlg P_LinAlg M_Ell S_Ell P_Ell3 P_Ell4 P_Lmi2
  M_Lowpass P_Lowpass M_Profit S_Profit P_Profit T_Drivers T_Ell T_Net T_Lowpass.
Local Open Scope R_scope.

(** ** C54 *)
Theorem C54_profit_report :
  forall p sc k a v P y t g f s, profit_init (p, sc, k) a v = Ok P ->
  profit_call P y t = Ok ((g, f), Some s) ->
  qty y 0%nat <= k /\ s = profit_of p sc a v (qty y) /\ t < s.
Proof.
  intros p sc k a v P y t g f s HP H. apply profit_init_ok in HP.
  destruct (profit_report P p sc k a v y t g f s HP H) as (H1 & H2 & H3 & _). split; [|auto].
  destruct HP as (_ & Hk & _). apply exp_le_iff in H1. rewrite exp_ln in H1 by assumption. exact H1.
Qed.
Print Assumptions C54_profit_report.
(** It reports whenever it can: inside the constraint, for a profit above t. *)
Theorem C54_profit_reports_iff :
  forall p sc k a v P y t, profit_init (p, sc, k) a v = Ok P ->
  0 < t + (v 0%nat * qty y 0%nat + v 1%nat * qty y 1%nat) ->
  exists c t1, profit_call P y t = Ok (c, t1) /\
    (t1 <> None <-> qty y 0%nat <= k /\ t < profit_of p sc a v (qty y)).
Proof.
  intros p sc k a v P y t HP Ht. apply profit_init_ok in HP. pose proof (profit_call_spec P p sc k a v y t HP) as Hs.
  pose proof HP as (Hpos & Hk & _). unfold qty in Ht.
  assert (Hk' : qty y 0%nat <= k <-> y 0%nat <= ln k).
  { unfold qty. rewrite <- (exp_ln k) at 1 by assumption. apply exp_le_iff. }
  destruct (profit_call P y t) as [[[g f] t1]|e]; [|lra]. exists (g, f), t1. split; [reflexivity|]. rewrite Hk'.
  destruct Hs as [(H1 & _ & _ & ->)|(Hy & _ & [(Hlt & _ & -> & _)|(Hle & -> & _)])].
  - split; [congruence|intros [? _]; lra].
  - apply lt_profit in Hlt; [|assumption..]. split; [auto|discriminate].
  - split; [congruence|]. intros [_ Hc]. apply lt_profit in Hc; [lra|assumption..].
Qed.
Print Assumptions C54_profit_reports_iff.

(** the parameters of tests/test_profit.py *)
Definition pa : nat -> R := pair2 (1 / 10) (4 / 10).
Definition pv : nat -> R := pair2 10 35.
Lemma profit_init_def p sc k a v : 0 < p * sc -> 0 < k -> exists P, profit_init (p, sc, k) a v = Ok P.
Proof. intros H1 H2. unfold profit_init. cbn [nmul RNum]. rewrite !nlog_ok by assumption. cbn [bind]. eauto. Qed.
Example C54_ex : exists P c s, profit_init (20, 40, 61 / 2) pa pv = Ok P /\
  profit_call P (fun _ => 0) 0 = Ok (c, Some s) /\ s = 755.
Proof.
  destruct (profit_init_def 20 40 (61 / 2) pa pv) as (P & HP); [lra..|].
  destruct (C54_profit_reports_iff _ _ _ _ _ _ (fun _ => 0) 0 HP) as (c & t1 & Hc & Hiff).
  { unfold qty, pv; cbn. rewrite exp_0. lra. }
  assert (E : profit_of 20 40 pa pv (qty (fun _ => 0)) = 755).
  { unfold profit_of, qty, Rpower, pa, pv; cbn. rewrite exp_0, ln_1, !Rmult_0_r, exp_0. lra. }
  destruct t1 as [s|].
  - destruct c as [g f]. exists P, (g, f), s. split; [exact HP|]. split; [exact Hc|].
    destruct (C54_profit_report _ _ _ _ _ _ _ _ _ _ _ HP Hc) as (_ & -> & _). exact E.
  - exfalso. apply (proj2 Hiff); [|reflexivity]. rewrite E. unfold qty. rewrite exp_0. lra.
Qed.

(** ** C55 *)
Theorem C55_profit_cut_valid :
  forall p sc k a v P y t g f t1, profit_init (p, sc, k) a v = Ok P ->
  0 <= v 0%nat -> 0 <= v 1%nat -> 0 <= t ->
  profit_call P y t = Ok ((g, f), t1) ->
  (forall z, qty z 0%nat <= k -> best t t1 <= profit_of p sc a v (qty z) -> dot 2 g (fun i => z i - y i) + f <= 0) /\
  0 <= f.
Proof.
  intros p sc k a v P y t g f t1 HP Hv0 Hv1 Ht H. apply profit_init_ok in HP. split.
  - intros z Hk Hz. apply (profit_cut_valid P p sc k a v y t g f t1 z HP Hv0 Hv1 Ht H); [|exact Hz].
    destruct HP as (_ & Hkp & _). rewrite <- (ln_exp (z 0%nat)). apply ln_le_iff; [apply exp_pos|assumption|exact Hk].
  - pose proof (profit_call_spec P p sc k a v y t HP) as Hs. rewrite H in Hs.
    destruct Hs as [(? & _ & -> & _)|(_ & _ & [(_ & -> & _)|(? & _ & -> & _)])]; lra.
Qed.
Print Assumptions C55_profit_cut_valid.
(** t >= 0 is needed: with p = A = 1, a = 0, v = (1, 0), k = 3 and t = -1 the cut at x1 = 3 removes x1 = 199/100,
    whose profit -99/100 is above t. *)
Example C55_negative_t :
  exists P y z g f, profit_init (1, 1, 3) (pair2 0 0) (pair2 1 0) = Ok P /\
    profit_call P y (-1) = Ok ((g, f), None) /\ qty z 0%nat <= 3 /\
    -1 < profit_of 1 1 (pair2 0 0) (pair2 1 0) (qty z) /\ 0 < dot 2 g (fun i => z i - y i) + f.
Proof.
  destruct (profit_init_def 1 1 3 (pair2 0 0) (pair2 1 0)) as (P & HP); [lra..|].
  set (y := pair2 (ln 3) 0). set (z := pair2 (ln (199 / 100)) 0).
  pose proof (profit_call_spec P 1 1 3 (pair2 0 0) (pair2 1 0) y (-1) (profit_init_ok _ _ _ _ _ _ HP)) as Hs.
  assert (E3 : exp (ln 3) = 3) by (apply exp_ln; lra).
  assert (Ez : exp (ln (199 / 100)) = 199 / 100) by (apply exp_ln; lra).
  assert (El : ln (1 * 1) = 0) by (rewrite Rmult_1_r; apply ln_1).
  assert (Ec : -1 + (pair2 1 0 0%nat * exp (y 0%nat) + pair2 1 0 1%nat * exp (y 1%nat)) = 2).
  { unfold y; cbn [pair2]. rewrite E3. lra. }
  rewrite Ec, El in Hs. destruct (profit_call P y (-1)) as [[[g f] t1]|e] eqn:Hc; [|lra].
  exists P, y, z, g, f. split; [exact HP|].
  assert (Hl2 : 0 < ln 2) by (rewrite <- ln_1; apply ln_increasing; lra).
  destruct Hs as [(H1 & _)|(_ & _ & [(Hlt & _)|(_ & -> & -> & ->)])].
  - exfalso. unfold y in H1; cbn [pair2] in H1. lra.
  - exfalso. unfold y in Hlt; cbn [pair2] in Hlt. lra.
  - split; [exact Hc|]. split; [unfold qty, z; cbn [pair2]; rewrite Ez; lra|]. split.
    + rewrite profit_of_log by lra. rewrite El. unfold z; cbn [pair2]. rewrite Ez, Rmult_0_l.
      rewrite !Rplus_0_l, Rmult_0_l, exp_0. lra.
    + rewrite dot2. cbv beta. unfold y, z. cbn [pair2]. rewrite E3.
      assert (0 < 3 * (ln (199 / 100) - ln 3) + 2 * ln 2); [|lra].
      replace (ln (199 / 100) - ln 3) with (ln (199 / 300)).
      2:{ replace (199 / 300) with (199 / 100 * / 3) by lra. rewrite ln_mult, ln_Rinv by lra. ring. }
      rewrite <- ln_1. replace (3 * ln (199 / 300) + 2 * ln 2) with (ln (199 / 300 * (199 / 300) * (199 / 300) * (2 * 2))).
      * apply ln_increasing; lra.
      * rewrite !ln_mult by lra. ring.
Qed.

(** ** C56 *)
(** [rb_calls o cs o']: the oracle goes from o to o' by the given calls (answers discarded) *)
Inductive rb_calls : profit_rb R -> list ((nat -> R) * R) -> profit_rb R -> Prop :=
| RC_nil o : rb_calls o [] o
| RC_cons o y t o1 r cs o' : profit_rb_call o y t = Ok (o1, r) -> rb_calls o1 cs o' -> rb_calls o ((y, t) :: cs) o'.
Lemma rb_calls_for o cs o' p sc k a v e1 e2 e3 e4 e5 : rb_calls o cs o' ->
  rb_for o p sc k a v e1 e2 e3 e4 e5 -> rb_for o' p sc k a v e1 e2 e3 e4 e5.
Proof. induction 1; [auto|]. intros Hf. apply IHrb_calls. eapply rb_call_inv; eassumption. Qed.
Theorem C56_rb_guaranteed_profit :
  forall p sc k a v e1 e2 e3 e4 e5 o0 cs o y t o' g f s,
  0 < sc -> 0 <= e1 -> 0 <= e2 -> 0 <= e3 -> 0 <= e4 -> 0 <= e5 ->
  profit_rb_init (p, sc, k) a v (e1, e2, e3, e4, e5) = Ok o0 -> rb_calls o0 cs o ->
  profit_rb_call o y t = Ok (o', ((g, f), Some s)) ->
  t < s /\ guaranteed p sc k a v e1 e2 e3 e4 e5 s (qty y) /\
  forall s', guaranteed p sc k a v e1 e2 e3 e4 e5 s' (qty y) -> s' <= s.
Proof.
  intros p sc k a v e1 e2 e3 e4 e5 o0 cs o y t o' g f s Hsc H1 H2 H3 H4 H5 H0 Hcs H.
  apply profit_rb_init_ok in H0. pose proof (rb_calls_for _ _ _ _ _ _ _ _ _ _ _ _ _ Hcs H0) as Ho.
  destruct (rb_call_inv _ _ _ _ _ _ _ _ _ _ _ _ _ _ _ Ho H) as (_ & P & HP & Hc).
  destruct (profit_report P _ _ _ _ _ y t g f s HP Hc) as (R1 & R2 & R3 & _).
  pose proof HP as (Hpos & Hk & _). split; [exact R3|]. split.
  - apply (proj1 (rb_guaranteed p sc k a v e1 e2 e3 e4 e5 y Hpos Hsc Hk H1 H2 H3 H4 H5 s)). split; [exact R1|]. rewrite R2. apply Rle_refl.
  - intros s' Hs'. apply (proj2 (rb_guaranteed p sc k a v e1 e2 e3 e4 e5 y Hpos Hsc Hk H1 H2 H3 H4 H5 s')) in Hs' as [_ Hs'].
    rewrite R2. exact Hs'.
Qed.
Print Assumptions C56_rb_guaranteed_profit.
(** The answer does not depend on earlier calls, in any arithmetic. *)
Theorem C56_rb_history_independent :
  forall (A : Type) (HA : Num A) (HT : NumT A) (o o1 : profit_rb A) y0 t0 r0 y t,
  profit_rb_call o y0 t0 = Ok (o1, r0) ->
  match profit_rb_call o y t, profit_rb_call o1 y t with
  | Ok (_, r), Ok (_, r1) => r = r1
  | Raise e, Raise e1 => e = e1
  | _, _ => False
  end.
Proof.
  intros A HA HT o o1 y0 t0 r0 y t H. unfold profit_rb_call in *. apply bind_ok in H as (r & _ & H). injection H as <- _.
  cbn [rb_P pf_log_pA pf_log_k pf_v rb_a rb_e].
  change (rb_exponents _ y) with (rb_exponents o y) at 2. destruct (profit_call _ y t); reflexivity.
Qed.
Print Assumptions C56_rb_history_independent.
Example C56_ex : exists o, profit_rb_init (20, 40, 61 / 2) pa pv (3 / 1000, 7 / 1000, 1, 1, 1) = Ok o /\
  exists o' c s, profit_rb_call o (fun _ => 0) 0 = Ok (o', (c, Some s)).
Proof.
  unfold profit_rb_init. destruct (profit_init_def (20 - 1) 40 (61 / 2 - 1) pa (fun i => pv i + 1)) as (P & HP); [lra..|].
  change (nsub (A := R)) with Rminus. change (nadd (A := R)) with Rplus. rewrite HP. cbn [bind]. eexists; split; [reflexivity|].
  match goal with |- context [profit_rb_call ?o] => set (o0 := o) end.
  assert (Ho : rb_for o0 20 40 (61 / 2) pa pv (3 / 1000) (7 / 1000) 1 1 1).
  { split; [reflexivity|]. split; [reflexivity|]. exists pa. apply profit_init_ok. exact HP. }
  unfold profit_rb_call.
  match goal with |- context [profit_call ?P0] => set (P1 := P0) end.
  assert (HP1 : oracle_for P1 (20 - 1) 40 (61 / 2 - 1) (rb_exp pa (3 / 1000) (7 / 1000) (fun _ => 0)) (fun i => pv i + 1)).
  { destruct Ho as (Ea & Ee & a0 & Q1 & Q2 & Q3 & Q4 & Q5 & Q6). repeat split; assumption. }
  pose proof (profit_call_spec P1 _ _ _ _ _ (fun _ => 0) 0 HP1) as Hs.
  destruct (profit_call P1 (fun _ => 0) 0) as [[[g f] t1]|e]; cbn [bind].
  - destruct Hs as [(Hs & _)|(_ & Hte & [(_ & _ & -> & _)|(Hle & _)])].
    + exfalso. assert (0 < ln (61 / 2 - 1)) by (rewrite <- ln_1; apply ln_increasing; lra). lra.
    + do 3 eexists. reflexivity.
    + exfalso. revert Hle. unfold pv; cbn [pair2]. rewrite exp_0, !Rmult_0_r, Rplus_0_r, Rplus_0_r. apply Rlt_not_le.
      apply ln_increasing; lra.
  - exfalso. destruct Hs as (_ & _ & Hs). unfold pv in Hs; cbn [pair2] in Hs. rewrite exp_0 in Hs. lra.
Qed.

(** ** C75: the robust cuts *)
Theorem C75_rb_cut_valid :
  forall p sc k a v e1 e2 e3 e4 e5 o0 cs o y t o' g f t1,
  0 < sc -> 0 <= e1 -> 0 <= e2 -> 0 <= e3 -> 0 <= e4 -> 0 <= e5 -> 0 <= v 0%nat -> 0 <= v 1%nat -> 0 <= t ->
  profit_rb_init (p, sc, k) a v (e1, e2, e3, e4, e5) = Ok o0 -> rb_calls o0 cs o ->
  profit_rb_call o y t = Ok (o', ((g, f), t1)) ->
  forall z, guaranteed p sc k a v e1 e2 e3 e4 e5 (best t t1) (qty z) -> dot 2 g (fun i => z i - y i) + f <= 0.
Proof.
  intros p sc k a v e1 e2 e3 e4 e5 o0 cs o y t o' g f t1 Hsc H1 H2 H3 H4 H5 Hv0 Hv1 Ht H0 Hcs H z Hz.
  apply profit_rb_init_ok in H0. pose proof (rb_calls_for _ _ _ _ _ _ _ _ _ _ _ _ _ Hcs H0) as Ho.
  destruct (rb_call_inv _ _ _ _ _ _ _ _ _ _ _ _ _ _ _ Ho H) as (_ & P & HP & Hc).
  pose proof HP as (_ & Hk & _). destruct (rb_worst a e1 e2 y H1 H2) as (W1 & W2 & _).
  destruct (Hz (p - e3) (k - e4) (rb_exp a e1 e2 y) (fun i => v i + e5)) as [G1 G2]; try (unfold within; lra); try assumption.
  refine (profit_cut_valid P _ _ _ _ _ y t g f t1 z HP _ _ Ht Hc _ G2); try lra.
  rewrite <- (ln_exp (z 0%nat)). apply ln_le_iff; [apply exp_pos|assumption|exact G1].
Qed.
Print Assumptions C75_rb_cut_valid.
(** a guaranteed point to keep *)
Example C75_ex : exists o o' c s, profit_rb_init (20, 40, 61 / 2) pa pv (3 / 1000, 7 / 1000, 1, 1, 1) = Ok o /\
  profit_rb_call o (fun _ => 0) 0 = Ok (o', (c, Some s)) /\
  guaranteed 20 40 (61 / 2) pa pv (3 / 1000) (7 / 1000) 1 1 1 (best 0 (Some s)) (qty (fun _ => 0)).
Proof.
  destruct C56_ex as (o & Ho & o' & [g f] & s & Hc). exists o, o', (g, f), s. split; [exact Ho|]. split; [exact Hc|].
  refine (proj1 (proj2 (C56_rb_guaranteed_profit _ _ _ _ _ _ _ _ _ _ _ [] o _ 0 _ _ _ _ _ _ _ _ _ _ Ho _ Hc))); lra || constructor.
Qed.

(** ** C76: the discrete oracle evaluates at integer points *)
Theorem C76_profit_q_reports_integral :
  forall p sc k a v P y t, profit_init (p, sc, k) a v = Ok P ->
  (* a fresh evaluation *)
  (forall yd yd' c x0 t1 more, profit_q_call P yd y t false = Ok (yd', (c, x0, t1, more)) ->
     yd' = Some x0 /\ more = true /\ integral (qty x0) /\
     (forall i, (i < 2)%nat -> Rabs (qty x0 i - qty y i) <= 1 / 2 \/ qty x0 i = 1 /\ qty y i <= 1 / 2) /\
     forall s, t1 = Some s -> qty x0 0%nat <= k /\ s = profit_of p sc a v (qty x0) /\ t < s) /\
  (* a repeated one *)
  (forall yd yd' c x0 t1 more, profit_q_call P (Some yd) y t true = Ok (yd', (c, x0, t1, more)) ->
     x0 = yd /\ yd' = Some yd /\ more = false /\
     forall s, t1 = Some s -> qty x0 0%nat <= k /\ s = profit_of p sc a v (qty x0) /\ t < s) /\
  profit_q_call P None y t true = Raise TypeError.
Proof.
  intros p sc k a v P y t HP.
  assert (Hrest : forall yd yd' c x0 t1 more retry,
    (' ((g, h), t1) <- profit_call P yd t ;; Ok (Some yd, ((g, nadd h (ndot 2 g (fun i => nsub (yd i) (y i)))), yd, t1, negb retry)))
     = Ok (yd', (c, x0, t1, more)) ->
    x0 = yd /\ yd' = Some yd /\ more = negb retry /\
    forall s, t1 = Some s -> qty x0 0%nat <= k /\ s = profit_of p sc a v (qty x0) /\ t < s).
  { intros yd yd' c x0 t1 more retry H. apply bind_ok in H as ([[g h] t2] & Hc & H). injection H as <- <- <- <- <-.
    repeat split; intros; subst; eapply C54_profit_report; eassumption. }
  split; [|split].
  - intros yd yd' c x0 t1 more H. unfold profit_q_call in H. destruct (round_point_ok y) as (yr & Hr & Hint & Hnear).
    rewrite Hr in H. cbn [bind] in H. destruct (Hrest _ _ _ _ _ _ false H) as (-> & -> & -> & Hs).
    split; [reflexivity|]. split; [reflexivity|]. split; [exact Hint|]. split; [|exact Hs].
    intros i Hi. unfold qty. pose proof (Rround_nearest (exp (y i))) as Hn.
    destruct (Hnear i Hi) as [[E1 E2]|E]; [right|left; rewrite E; exact Hn].
    split; [exact E1|]. rewrite E2 in Hn. revert Hn. unfold Rabs. destruct (Rcase_abs _); lra.
  - intros yd yd' c x0 t1 more H. unfold profit_q_call in H. cbn [bind] in H. exact (Hrest _ _ _ _ _ _ true H).
  - reflexivity.
Qed.
Print Assumptions C76_profit_q_reports_integral.
Lemma round_origin : round_point (fun _ => 0 : R) = Ok (pair2 (ln 1) (ln 1)).
Proof.
  assert (I2 : Int_part 1 = 1%Z) by (unfold Int_part; symmetry; apply Z.add_move_r; apply tech_up; cbn; lra).
  unfold round_point. cbn [nround nexp RNumT neqb RNum nzero none]. rewrite exp_0.
  replace (Rround 1) with 1 by (unfold Rround; rewrite I2; destruct (Rlt_dec _ _); [reflexivity|lra]).
  assert (B' : Req_bool 1 0 = false) by (apply Reqb_false; lra). rewrite B'. cbn [bind]. rewrite !nlog_ok by lra. reflexivity.
Qed.
Lemma q_origin : exists P g f x0, profit_init (20, 40, 61 / 2) pa pv = Ok P /\
  profit_q_call P None (fun _ => 0) 0 false = Ok (Some x0, ((g, f), x0, Some 755, true)) /\ qty x0 0%nat = 1 /\ qty x0 1%nat = 1
  /\ nonzero 2 g /\ f = 0.
Proof.
  destruct (profit_init_def 20 40 (61 / 2) pa pv) as (P & HP); [lra..|]. exists P.
  pose proof (profit_call_spec P _ _ _ _ _ (pair2 (ln 1) (ln 1)) 0 (profit_init_ok _ _ _ _ _ _ HP)) as Hs.
  unfold profit_q_call. rewrite round_origin. cbn [bind].
  assert (Ec : 0 + (pv 0%nat * exp (pair2 (ln 1) (ln 1) 0%nat) + pv 1%nat * exp (pair2 (ln 1) (ln 1) 1%nat)) = 45).
  { unfold pv; cbn [pair2]. rewrite ln_1, exp_0. lra. }
  assert (El : ln (20 * 40) + (pa 0%nat * pair2 (ln 1) (ln 1) 0%nat + pa 1%nat * pair2 (ln 1) (ln 1) 1%nat) = ln (20 * 40)).
  { cbn [pair2]. rewrite ln_1. ring. }
  rewrite Ec, El in Hs. assert (Ek : ln 1 < ln (61 / 2)) by (apply ln_increasing; lra).
  assert (E45 : ln 45 < ln (20 * 40)) by (apply ln_increasing; lra).
  destruct (profit_call P (pair2 (ln 1) (ln 1)) 0) as [[[g f] t1]|e].
  - destruct Hs as [(Hs & _)|(_ & _ & [(_ & -> & -> & ->)|(Hs & _)])]; [cbn in Hs; lra| |lra].
    rewrite Rplus_0_l in Ec. rewrite Ec, exp_ln by lra.
    replace (20 * 40 - 45) with 755 by lra.
    cbn [bind negb]. do 3 eexists. split; [exact HP|]. split.
    + reflexivity.
    + unfold qty; cbn [pair2]. rewrite !exp_ln by lra. split; [reflexivity|]. split; [reflexivity|]. split.
      * exists 0%nat. split; [lia|]. unfold pa, pv; cbn [pair2]. lra.
      * change (ndot 2 ?a ?b) with (dot 2 a b). change (nadd (A := R)) with Rplus. rewrite dot2. cbn [nsub RNum pair2]. rewrite ln_1. ring.
  - destruct Hs as (_ & _ & Hs). lra.
Qed.
Example C76_ex : exists P c x0, profit_init (20, 40, 61 / 2) pa pv = Ok P /\
  profit_q_call P None (fun _ => 0) 0 false = Ok (Some x0, (c, x0, Some 755, true)) /\ qty x0 0%nat = 1 /\ qty x0 1%nat = 1.
Proof. destruct q_origin as (P & g & f & x0 & H1 & H2 & H3 & H4 & _). exists P, (g, f), x0. auto. Qed.

(** The oracles as the drivers call them. *)
Definition profit_omega (P : profit R) (o : unit) (y : nat -> R) (t : R) : res (unit * (cut R * option R)) :=
  ' ((g, f), t1) <- profit_call P y t ;; Ok (tt, ((g, BScalar f), t1)).
Definition profit_rb_omega (o : profit_rb R) (y : nat -> R) (t : R) : res (profit_rb R * (cut R * option R)) :=
  ' (o', ((g, f), t1)) <- profit_rb_call o y t ;; Ok (o', ((g, BScalar f), t1)).
Definition profit_q_omega (P : profit R) (o : option (nat -> R)) (y : nat -> R) (t : R) (retry : bool)
  : res (option (nat -> R) * (cut R * (nat -> R) * option R * bool)) :=
  ' (o', ((g, f), x0, t1, more)) <- profit_q_call P o y t retry ;; Ok (o', ((g, BScalar f), x0, t1, more)).

(** ** C46 for the discrete profit oracle *)
(** The cut, taken at the query point y, is the cut of the rounded point yd translated by 2 (yd - y) ... *)
Theorem C46_profit_q_cut_translated_partial :
  forall (P : profit R) o y t retry o' g f x0 t1 more,
  profit_q_call P o y t retry = Ok (o', ((g, f), x0, t1, more)) ->
  exists f0, profit_call P x0 t = Ok ((g, f0), t1) /\
  forall z, dot 2 g (fun i => z i - y i) + f = dot 2 g (fun i => z i + 2 * (x0 i - y i) - x0 i) + f0.
Proof.
  intros P o y t retry o' g f x0 t1 more H. unfold profit_q_call in H. apply bind_ok in H as (yd & _ & H).
  apply bind_ok in H as ([[g0 f0] t2] & Hc & H). injection H as <- <- <- <- <- <-. exists f0. split; [exact Hc|].
  intros z. change (nadd f0 (ndot 2 g0 (fun i => nsub (yd i) (y i)))) with (f0 + dot 2 g0 (fun i => yd i - y i)).
  rewrite !dot2. ring.
Qed.
Print Assumptions C46_profit_q_cut_translated_partial.
(** ... so a feasible integer point of profit above the best-so-far value can be cut off:
    k = 31/20, y1 = log k is rounded up to log 2, and the cut removes x = (1, 1). *)
Theorem C46_profit_q_recentred_cut_refuted :
  ~ (forall p sc k a v P yd y t retry yd' g f x0 t1 more,
       profit_init (p, sc, k) a v = Ok P -> 0 <= v 0%nat -> 0 <= v 1%nat -> 0 <= t ->
       profit_q_call P yd y t retry = Ok (yd', ((g, f), x0, t1, more)) ->
       forall z, integral (qty z) -> qty z 0%nat <= k -> best t t1 < profit_of p sc a v (qty z) ->
         dot 2 g (fun i => z i - y i) + f <= 0).
Proof.
  intros Hall. destruct (profit_init_def 20 40 (31 / 20) pa pv) as (P & HP); [lra..|].
  set (y := pair2 (ln (31 / 20)) 0). set (yd := pair2 (ln 2) (ln 1)).
  assert (E0 : exp (ln (31 / 20)) = 31 / 20) by (apply exp_ln; lra).
  assert (Hround : round_point y = Ok yd).
  { assert (I1 : Int_part (31 / 20) = 1%Z).
    { unfold Int_part. assert (1 <= 31 / 20 < 2) by lra. symmetry. apply Z.add_move_r. apply tech_up; cbn; lra. }
    assert (I2 : Int_part 1 = 1%Z).
    { unfold Int_part. symmetry. apply Z.add_move_r. apply tech_up; cbn; lra. }
    unfold round_point. cbn [nround nexp RNumT neqb RNum nzero none]. unfold y; cbn [pair2]. rewrite E0, exp_0.
    replace (Rround (31 / 20)) with 2.
    2:{ unfold Rround. rewrite I1. destruct (Rlt_dec _ _); [lra|]. destruct (Rlt_dec _ _); [reflexivity|lra]. }
    replace (Rround 1) with 1.
    2:{ unfold Rround. rewrite I2. destruct (Rlt_dec _ _); [reflexivity|lra]. }
    assert (B : Req_bool 2 0 = false) by (apply Reqb_false; lra). assert (B' : Req_bool 1 0 = false) by (apply Reqb_false; lra).
    rewrite B, B'. cbn [bind]. rewrite !nlog_ok by lra. reflexivity. }
  assert (Hln : ln (31 / 20) < ln 2) by (apply ln_increasing; lra).
  assert (Hcall : profit_call P yd 0 = Ok ((pair2 1 0, ln 2 - ln (31 / 20)), None)).
  { pose proof (profit_call_spec P _ _ _ _ _ yd 0 (profit_init_ok _ _ _ _ _ _ HP)) as Hs.
    destruct (profit_call P yd 0) as [[[g f] t1]|e].
    - destruct Hs as [(_ & -> & -> & ->)|(Hs & _)]; [reflexivity|]. unfold yd in Hs; cbn [pair2] in Hs. lra.
    - destruct Hs as (_ & Hs & _). unfold yd in Hs; cbn [pair2] in Hs. lra. }
  assert (Hrun : exists f, profit_q_call P None y 0 false = Ok (Some yd, ((pair2 1 0, f), yd, None, true)) /\
    f = ln 2 - ln (31 / 20) + (ln 2 - ln (31 / 20))).
  { unfold profit_q_call. rewrite Hround. cbn [bind]. rewrite Hcall. cbn [bind negb]. eexists; split; [reflexivity|].
    change (ndot 2 ?a ?b) with (dot 2 a b). change (nadd (A := R)) with Rplus. rewrite dot2. unfold y, yd. cbn [pair2 nsub RNum]. ring. }
  destruct Hrun as (f & Hrun & Ef).
  specialize (Hall 20 40 (31 / 20) pa pv P None y 0 false _ _ _ _ _ _ HP ltac:(cbn; lra) ltac:(cbn; lra) ltac:(lra) Hrun (fun _ => 0)).
  assert (H1 : integral (qty (fun _ => 0))).
  { exists 1%Z, 1%Z. unfold qty. rewrite exp_0. repeat split; lia || reflexivity. }
  assert (H2 : qty (fun _ => 0) 0%nat <= 31 / 20) by (unfold qty; rewrite exp_0; lra).
  assert (H3 : best 0 None < profit_of 20 40 pa pv (qty (fun _ => 0))).
  { unfold profit_of, qty, Rpower, pa, pv; cbn. rewrite exp_0, ln_1, !Rmult_0_r, exp_0. lra. }
  specialize (Hall H1 H2 H3). rewrite dot2, Ef in Hall. unfold y in Hall. cbn [pair2] in Hall.
  assert (3 * ln (31 / 20) < 2 * ln 2); [|lra].
  replace (3 * ln (31 / 20)) with (ln (31 / 20 * (31 / 20) * (31 / 20))) by (rewrite !ln_mult by lra; ring).
  replace (2 * ln 2) with (ln (2 * 2)) by (rewrite ln_mult by lra; ring).
  apply ln_increasing; lra.
Qed.
Print Assumptions C46_profit_q_recentred_cut_refuted.

(** ** C77: the continuous and the robust oracle end to end *)
Section EndToEnd.
Context {O : Type} (om : O -> (nat -> R) -> R -> res (O * (cut R * option R))) (OI : O -> Prop)
  (good : R -> (nat -> R) -> Prop).
Hypothesis Hcut : forall o x t o' c t1, OI o -> 0 <= t -> om o x t = Ok (o', (c, t1)) ->
  OI o' /\ forall z, good (best t t1) z -> sat_cut 2 x c z.
Hypothesis Hrep : forall o x t o' c t1, OI o -> 0 <= t -> om o x t = Ok (o', (c, Some t1)) -> t < t1 /\ good t1 x.
Hypothesis Hanti : forall t t' z, t <= t' -> good t' z -> good t z.
Definition om' (o : O) (x : nat -> R) (t : R) := if Rlt_dec t 0 then Raise OutOfFuel else om o x t.
Lemma guard_inv o x t o' c t1 : OI o -> om' o x t = Ok (o', (c, t1)) -> 0 <= t /\ om o x t = Ok (o', (c, t1)) /\ OI o'.
Proof.
  intros Ho1 E. unfold om' in E. destruct (Rlt_dec t 0) as [L|L]; [discriminate|].
  apply Rnot_lt_le in L. split; [exact L|]. split; [exact E|]. apply (Hcut _ _ _ _ _ _ Ho1 L E).
Qed.
Lemma guard_optimizes : optimizes om' OI (sat_cut 2) good.
Proof.
  intros o1 x t1 o2 c t2 Ho1 E. destruct (guard_inv _ _ _ _ _ _ Ho1 E) as (Ht1 & E1 & Ho2).
  split; [exact Ho2|]. split; [apply (Hcut _ _ _ _ _ _ Ho1 Ht1 E1)|]. intros z. destruct t2 as [t2|]; [|auto].
  apply Hanti. destruct (Hrep _ _ _ _ _ _ Ho1 Ht1 E1). cbn. lra.
Qed.
Lemma guard_run tneq max_it tol o w e t : 0 <= t -> OI o -> ell_wf e ->
  cutting_plane_dc ell_space Rltb tneq om' max_it tol o (w, e) t = cutting_plane_dc ell_space Rltb tneq om max_it tol o (w, e) t.
Proof.
  intros Ht Ho He. unfold cutting_plane_dc. destruct max_it as [|k]; [reflexivity|]. symmetry.
    (* restricted to states of the oracle satisfying OI *)
    generalize (S k) as m. intros m. generalize 0%nat as niter. generalize (@None loc) as xb0. generalize t at 1 3 as t0. revert t Ht o Ho w e He.
    induction m as [|m IH]; intros t Ht o Ho w e He t0 xb0 niter; [reflexivity|]. cbn [dc_loop].
    assert (Eo : om' o (centre ell_space (w, e)) t = om o (centre ell_space (w, e)) t).
    { unfold om'. destruct (Rlt_dec t 0); [lra|reflexivity]. }
    rewrite Eo. destruct (om o (centre ell_space (w, e)) t) as [[o1 [c t1]]|ex] eqn:E; [|reflexivity]. cbn [bind].
    destruct (sp_update ell_space (w, e) c) as [[[w1 e1] [s q]]|ex] eqn:Eu; [|reflexivity]. cbn [bind].
    destruct (negb _); [reflexivity|]. destruct (Rltb q tol); [reflexivity|]. rewrite IH; [reflexivity| | |].
    - destruct t1 as [t1|]; [|exact Ht]. destruct (Hrep _ _ _ _ _ _ Ho Ht E). lra.
    - apply (Hcut _ _ _ _ _ _ Ho Ht E).
    - exact (ell_update_wf (w, e) c (w1, e1) (s, q) He Eu).
Qed.
Lemma profit_run tneq max_it tol o w e t tr o' w' e' xb t' info :
  0 <= t -> OI o -> ell_wf e -> e_n e = 2%nat ->
  cutting_plane_dc ell_space Rltb tneq om max_it tol o (w, e) t = Ok (tr, o', (w', e'), (xb, t', info)) ->
  (cstatus info = nosoln -> forall z, mem_ell (w, e) z -> ~ good t' z) /\
  (cstatus info <> nosoln -> forall z, mem_ell (w, e) z -> good t' z -> mem_ell (w', e') z) /\
  t <= t' /\ (xb = None -> t' = t) /\ (xb <> None -> t < t' /\ exists ev, In ev tr /\ d_t1 ev = Some t' /\ good t' (d_x ev)).
Proof.
  intros Ht Ho He En H.
  assert (HIom := guard_inv).
  assert (E' : cutting_plane_dc ell_space Rltb tneq om' max_it tol o (w, e) t = Ok (tr, o', (w', e'), (xb, t', info)))
    by (rewrite guard_run; assumption).
  assert (Hopt := guard_optimizes). rewrite <- En in Hopt.
  destruct (C06_dc_ell_never_loses_better _ _ tneq _ OI _ max_it tol o w e t tr o' w' e' xb t' info Hopt He Ho E') as [H1 H2].
  split; [exact H1|]. split; [exact H2|].
  destruct (C04_dc_last_improvement _ _ _ _ _ _ _ _ _ _ _ _ _ _ _ _ _ _ _ _ _ _ E') as (Hr & Hb & _).
  assert (HI : forall o x t o' c t1, OI o -> om' o x t = Ok (o', (c, t1)) -> OI o').
  { intros o1 x t1 o2 c t2 Ho1 E. apply (HIom _ _ _ _ _ _ Ho1 E). }
  assert (Hmono : t <= t' /\ forall ev t1, In ev tr -> d_t1 ev = Some t1 -> t < t1).
  { clear - Hr Ho HIom Hrep. revert Hr Ho. generalize (w, e) as st, (w', e') as st'. intros st st' Hr.
    induction Hr as [o st t|o st t c t1 o1 st1 s q tr o' st' t' Hom Hup Hr IH]; intros Ho; [split; [lra|contradiction]|].
    destruct (HIom _ _ _ _ _ _ Ho Hom) as (Ht & E & Ho1). destruct (IH Ho1) as [I1 I2].
    assert (t <= best t t1 /\ forall s, t1 = Some s -> t < s) as [B1 B2].
    { destruct t1 as [t1|]; [|split; [cbn; lra|discriminate]]. destruct (Hrep _ _ _ _ _ _ Ho Ht E). cbn.
      split; [lra|]. intros ? [= <-]. assumption. }
    split; [lra|]. intros ev t2 [<-|Hin] Ev; [cbn in Ev; auto|]. specialize (I2 _ _ Hin Ev). lra. }
  destruct Hmono as [M1 M2]. split; [exact M1|].
  destruct Hb as [(_ & -> & ->)|(tr1 & ev & tr2 & -> & _ & Hev & Hxb)].
  - split; [reflexivity|congruence].
  - split; [congruence|]. intros _. assert (Hin : In ev (tr1 ++ ev :: tr2)) by (apply in_or_app; right; left; reflexivity).
    split; [exact (M2 _ _ Hin Hev)|].
    destruct (dc_replay_in ell_space _ OI HI _ _ _ _ _ _ _ Ho Hr ev Hin) as (o1 & o2 & Ho1 & Hx).
    destruct (HIom _ _ _ _ _ _ Ho1 Hx) as (Ht1 & E1 & _). exists ev. rewrite Hev in E1.
    destruct (Hrep _ _ _ _ _ _ Ho1 Ht1 E1). auto.
Qed.
End EndToEnd.

Theorem C77_profit_end_to_end :
  forall p sc k a v P tneq max_it tol w e t tr o' w' e' xb t' info,
  profit_init (p, sc, k) a v = Ok P -> 0 <= v 0%nat -> 0 <= v 1%nat -> 0 <= t -> ell_wf e -> e_n e = 2%nat ->
  cutting_plane_dc ell_space Rltb tneq (profit_omega P) max_it tol tt (w, e) t
    = Ok (tr, o', (w', e'), (xb, t', info)) ->
  let good s z := qty z 0%nat <= k /\ s <= profit_of p sc a v (qty z) in
  (cstatus info = nosoln -> forall z, mem_ell (w, e) z -> ~ good t' z) /\
  (cstatus info <> nosoln -> forall z, mem_ell (w, e) z -> good t' z -> mem_ell (w', e') z) /\
  (xb = None -> t' = t) /\
  (xb <> None -> t < t' /\ exists y, qty y 0%nat <= k /\ t' = profit_of p sc a v (qty y)).
Proof.
  intros p sc k a v P tneq max_it tol w e t tr o' w' e' xb t' info HP Hv0 Hv1 Ht He En H good.
  destruct (profit_run (profit_omega P) (fun _ => True) (fun s z => qty z 0%nat <= k /\ s <= profit_of p sc a v (qty z)))
    with (8 := H) as (H1 & H2 & _ & H3 & H4); try assumption; try exact I.
  - intros o x t0 o1 c t1 _ Ht0 E. split; [exact I|]. unfold profit_omega in E. apply bind_ok in E as ([[g f] t2] & E & E').
    injection E' as _ <- <-. intros z [Z1 Z2]. unfold sat_cut; cbn [fst snd beta0].
    exact (proj1 (C55_profit_cut_valid _ _ _ _ _ _ _ _ _ _ _ HP Hv0 Hv1 Ht0 E) z Z1 Z2).
  - intros o x t0 o1 c t1 _ Ht0 E. unfold profit_omega in E. apply bind_ok in E as ([[g f] t2] & E & E'). injection E' as _ _ ->.
    destruct (C54_profit_report _ _ _ _ _ _ _ _ _ _ _ HP E) as (R1 & -> & R2). split; [exact R2|]. split; [exact R1|apply Rle_refl].
  - intros s s' z Hs [Z1 Z2]. split; [exact Z1|lra].
  - split; [exact H1|]. split; [exact H2|]. split; [exact H3|]. intros Hx. destruct (H4 Hx) as (L & ev & Hin & Hev & G1 & G2).
    split; [exact L|]. exists (d_x ev). split; [exact G1|].
    destruct (C04_dc_last_improvement _ _ _ _ _ _ _ _ _ _ _ _ _ _ _ _ _ _ _ _ _ _ H) as (Hr & _).
    destruct (dc_replay_in ell_space _ (fun _ => True) (fun _ _ _ _ _ _ _ _ => I) _ _ _ _ _ _ _ I Hr ev Hin) as (o1 & o2 & _ & E).
    rewrite Hev in E. unfold profit_omega in E. apply bind_ok in E as ([[g f] t2] & E & E'). injection E' as _ _ ->.
    apply (C54_profit_report _ _ _ _ _ _ _ _ _ _ _ HP E).
Qed.
Print Assumptions C77_profit_end_to_end.

Theorem C77_profit_rb_end_to_end :
  forall p sc k a v e1 e2 e3 e4 e5 o tneq max_it tol w e t tr o' w' e' xb t' info,
  0 < sc -> 0 <= e1 -> 0 <= e2 -> 0 <= e3 -> 0 <= e4 -> 0 <= e5 -> 0 <= v 0%nat -> 0 <= v 1%nat -> 0 <= t ->
  profit_rb_init (p, sc, k) a v (e1, e2, e3, e4, e5) = Ok o -> ell_wf e -> e_n e = 2%nat ->
  cutting_plane_dc ell_space Rltb tneq profit_rb_omega max_it tol o (w, e) t
    = Ok (tr, o', (w', e'), (xb, t', info)) ->
  let good s z := guaranteed p sc k a v e1 e2 e3 e4 e5 s (qty z) in
  (cstatus info = nosoln -> forall z, mem_ell (w, e) z -> ~ good t' z) /\
  (cstatus info <> nosoln -> forall z, mem_ell (w, e) z -> good t' z -> mem_ell (w', e') z) /\
  (xb = None -> t' = t) /\
  (xb <> None -> t < t' /\ exists y, good t' y).
Proof.
  intros p sc k a v e1 e2 e3 e4 e5 o tneq max_it tol w e t tr o' w' e' xb t' info Hsc H1 H2 H3 H4 H5 Hv0 Hv1 Ht Hi He En H good.
  pose (OI := fun o1 => exists cs, rb_calls o cs o1).
  assert (HO : forall o1 cs o2 y t r, rb_calls o cs o1 -> profit_rb_call o1 y t = Ok (o2, r) -> OI o2).
  { intros o1 cs o2 y t0 r Hcs Hc. exists (cs ++ [(y, t0)]). clear - Hcs Hc. induction Hcs; cbn.
    - eapply RC_cons; [exact Hc|constructor].
    - eapply RC_cons; [eassumption|]. apply IHHcs. exact Hc. }
  destruct (profit_run profit_rb_omega OI (fun s z => guaranteed p sc k a v e1 e2 e3 e4 e5 s (qty z)))
    with (8 := H) as (R1 & R2 & _ & R3 & R4); try assumption.
  - intros o1 x t0 o2 c t1 (cs & Hcs) Ht0 E. unfold profit_rb_omega in E. apply bind_ok in E as ([o3 [[g f] t2]] & E & E').
    injection E' as <- <- <-. split; [eapply HO; eassumption|]. intros z Hz. unfold sat_cut; cbn [fst snd beta0].
    exact (C75_rb_cut_valid _ _ _ _ _ _ _ _ _ _ _ _ _ _ _ _ _ _ _ Hsc H1 H2 H3 H4 H5 Hv0 Hv1 Ht0 Hi Hcs E z Hz).
  - intros o1 x t0 o2 c t1 (cs & Hcs) Ht0 E. unfold profit_rb_omega in E. apply bind_ok in E as ([o3 [[g f] t2]] & E & E').
    injection E' as _ _ ->.
    destruct (C56_rb_guaranteed_profit _ _ _ _ _ _ _ _ _ _ _ _ _ _ _ _ _ _ _ Hsc H1 H2 H3 H4 H5 Hi Hcs E) as (G1 & G2 & _). auto.
  - intros s s' z Hs G p' k' a' v' B1 B2 B3 B4 B5 B6. destruct (G p' k' a' v' B1 B2 B3 B4 B5 B6). split; [assumption|lra].
  - exists []. constructor.
  - split; [exact R1|]. split; [exact R2|]. split; [exact R3|]. intros Hx. destruct (R4 Hx) as (L & ev & _ & _ & G). split; [exact L|].
    exists (d_x ev). exact G.
Qed.
Print Assumptions C77_profit_rb_end_to_end.

Example C77_ex : exists P tr o' st' info s, profit_init (20, 40, 61 / 2) pa pv = Ok P /\ ell_wf ball2 /\ e_n ball2 = 2%nat /\
  cutting_plane_dc ell_space Rltb (fun a b => negb (Req_bool a b)) (profit_omega P) 1 (1 / 10) tt (fun _ _ => 0, ball2) 0
  = Ok (tr, o', st', (Some 0%nat, s, info)).
Proof.
  destruct C54_ex as (P & [g f] & s & HP & Hc & _).
  pose proof (profit_call_spec P _ _ _ _ _ (fun _ => 0) 0 (profit_init_ok _ _ _ _ _ _ HP)) as Hs. rewrite Hc in Hs.
  destruct Hs as [(_ & _ & _ & Hs)|(_ & _ & [(_ & Hf & _ & Hg)|(_ & Hs & _)])]; try discriminate.
  destruct (dc_one_step (profit_omega P) (fun a b => negb (Req_bool a b)) (1 / 10) tt (fun _ _ => 0) ball2 0 tt g (BScalar f) (Some s))
    as (tr & o' & st' & info & H).
  - apply ball2_proper.
  - exists 0%nat. split; [cbn; lia|]. rewrite Hg. cbn [pair2]. rewrite exp_0, !Rmult_0_r, !Rplus_0_r, exp_ln by lra. unfold pa, pv; cbn. lra.
  - unfold profit_omega. rewrite Hc. reflexivity.
  - lra.
  - exists P, tr, o', st', info, s. split; [exact HP|]. split; [apply ball2_proper|]. split; [reflexivity|]. exact H.
Qed.

(** ** C78: the discrete oracle end to end *)
Theorem C78_profit_q_integer_result :
  forall p sc k a v P tneq max_it tol w e t tr o' st' xb t' info,
  profit_init (p, sc, k) a v = Ok P ->
  cutting_plane_q ell_space Rltb tneq (profit_q_omega P) max_it tol None (w, e) t
    = Ok (tr, o', st', (xb, t', info)) ->
  (xb = None -> t' = t) /\
  forall x, xb = Some x -> integral (qty x) /\ qty x 0%nat <= k /\ t' = profit_of p sc a v (qty x) /\ t < t'.
Proof.
  intros p sc k a v P tneq max_it tol w e t tr o' st' xb t' info HP H.
  destruct (C09_q_snapshot_and_retry _ _ _ _ _ _ _ _ _ _ _ _ _ _ _ _ _ _ _ _ _ _ H) as (Hr & Hb & _).
  pose (OI := fun o : option (nat -> R) => forall y, o = Some y -> integral (qty y)).
  assert (Hcall : forall o y t retry o1 c x0 t1 more, OI o -> profit_q_omega P o y t retry = Ok (o1, (c, x0, t1, more)) ->
    OI o1 /\ integral (qty x0) /\ forall s, t1 = Some s -> qty x0 0%nat <= k /\ s = profit_of p sc a v (qty x0) /\ t < s).
  { intros o y t0 retry o1 c x0 t1 more Ho E. unfold profit_q_omega in E. apply bind_ok in E as ([o2 [[[[g f] x1] t2] m]] & E & E').
    injection E' as <- <- <- <- <-. destruct (C76_profit_q_reports_integral p sc k a v P y t0 HP) as (F & Rt & _). destruct retry.
    - destruct o as [yd|]; [|discriminate]. destruct (Rt _ _ _ _ _ _ E) as (-> & -> & _ & Hs).
      split; [exact Ho|]. split; [apply Ho; reflexivity|exact Hs].
    - destruct (F _ _ _ _ _ _ E) as (-> & _ & Hi & _ & Hs). split; [intros z [= <-]; exact Hi|]. auto. }
  assert (Hall : OI None) by discriminate.
  assert (Hrun : t <= t' /\ forall ev s, In ev tr -> q_t1 ev = Some s ->
    t < s /\ integral (qty (q_x0 ev)) /\ qty (q_x0 ev) 0%nat <= k /\ s = profit_of p sc a v (qty (q_x0 ev))).
  { clear - Hr Hcall Hall. revert Hall Hr. generalize (@None (nat -> R)) as o, (w, e) as st. intros o st Ho Hr.
    induction Hr as [o st t|o st t retry c x0 t1 more o1 st1 s q tr o' st' t' Hom Hup Hr IH]; [split; [lra|contradiction]|].
    destruct (Hcall _ _ _ _ _ _ _ _ _ Ho Hom) as (Ho1 & Hi & Hs). destruct (IH Ho1) as [I1 I2].
    assert (B : t <= best t t1). { destruct t1 as [s1|]; cbn; [|lra]. destruct (Hs s1 eq_refl) as (_ & _ & ?). lra. }
    split; [lra|]. intros ev s1 [<-|Hin] Ev.
    - cbn in *. destruct (Hs s1 Ev) as (? & ? & ?). auto.
    - destruct (I2 ev s1 Hin Ev) as (? & ?). split; [lra|assumption]. }
  destruct Hrun as [_ Hrun].
  destruct Hb as [(_ & -> & ->)|(tr1 & ev & tr2 & -> & _ & Hev & ->)]; [split; [reflexivity|discriminate]|].
  split; [discriminate|]. intros x [= <-]. destruct (Hrun ev t') as (? & ? & ? & ?); [apply in_or_app; right; left; reflexivity|exact Hev|].
  auto.
Qed.
Print Assumptions C78_profit_q_integer_result.
(** No run from a fresh oracle re-uses a missing rounded point. *)
Theorem C78_profit_q_no_missing_point :
  forall (P : profit R) tneq max_it tol w e t,
  cutting_plane_q ell_space Rltb tneq (profit_q_omega P) max_it tol None (w, e) t <> Raise TypeError.
Proof.
  intros P tneq max_it tol w e t.
  assert (Hc : forall y t, no_te (profit_call P y t)).
  { clear. intros y t. unfold profit_call, grad2. destruct (nltb _ _); [apply no_te_ok|]. apply no_te_bind.
    - cbn. destruct (Rlt_dec _ _); discriminate.
    - intros l _. destruct (nltb _ _); no_te. }
  assert (Hq : forall o y t retry, (retry = true -> o <> None) -> no_te (profit_q_omega P o y t retry) /\
    forall o1 r, profit_q_omega P o y t retry = Ok (o1, r) -> o1 <> None).
  { clear - Hc. intros o y t retry Ho. unfold profit_q_omega, profit_q_call. split.
    - apply no_te_bind; [|intros [? [[[[? ?] ?] ?] ?]] _; apply no_te_ok]. apply no_te_bind.
      + destruct retry; [destruct o; [apply no_te_ok|exfalso; apply Ho; reflexivity]|].
        destruct (round_point_ok y) as (yd & E & _). change (round_point y) with (round_point (A := R) y). rewrite E. apply no_te_ok.
      + intros yd _. apply no_te_bind; [apply Hc|]. intros [[? ?] ?] _. apply no_te_ok.
    - intros o1 r H. apply bind_ok in H as ([o2 [[[[? ?] ?] ?] ?]] & H & H'). injection H' as <- _.
      apply bind_ok in H as (yd & _ & H). apply bind_ok in H as ([[? ?] ?] & _ & H). injection H as <- _. discriminate. }
  assert (Hloop : forall k niter t0 o st t xb stat, (stat = noeffect -> o <> None) ->
    no_te (q_loop ell_space Rltb tneq (profit_q_omega P) k niter tol t0 o st t xb stat)).
  { clear - Hq. induction k as [|k IH]; intros niter t0 o st t xb stat Hst; [apply no_te_ok|]. cbn [q_loop].
    destruct (Hq o (centre ell_space st) t (status_eqb stat noeffect)) as [H1 H2].
    { destruct stat; cbn; try discriminate. intros _. apply Hst. reflexivity. }
    apply no_te_bind; [exact H1|]. intros [o1 [[[c x0] t1] more]] Ho. specialize (H2 _ _ Ho).
    apply no_te_bind; [destruct st, c; apply ell_update_no_te|]. intros [st1 [stat1 tsq]] _.
    destruct (andb _ _); [apply no_te_ok|]. destruct (status_eqb stat1 nosoln); [apply no_te_ok|].
    destruct (Rltb tsq tol); [apply no_te_ok|].
    apply no_te_bind; [|intros [[[tr o2] st2] r] _; apply no_te_ok]. apply IH. auto. }
  unfold cutting_plane_q. destruct max_it as [|k]; [discriminate|]. apply Hloop. discriminate.
Qed.
Print Assumptions C78_profit_q_no_missing_point.
Example C78_ex : exists P tr o' st' info x, profit_init (20, 40, 61 / 2) pa pv = Ok P /\
  cutting_plane_q ell_space Rltb (fun a b => negb (Req_bool a b)) (profit_q_omega P) 1 (1 / 10) None (fun _ _ => 0, ball2) 0
  = Ok (tr, o', st', (Some x, 755, info)) /\ qty x 0%nat = 1 /\ qty x 1%nat = 1.
Proof.
  destruct q_origin as (P & g & f & x0 & HP & Hc & Hx0 & Hx1 & Hg & Hf). exists P.
  unfold cutting_plane_q, q_loop, centre. change (sp_deref ell_space (fun _ _ => 0, ball2) (sp_xc ell_space (fun _ _ => 0, ball2))) with (fun _ : nat => 0).
  unfold profit_q_omega. cbn [status_eqb]. rewrite Hc. cbn [bind]. change (sp_update ell_space) with (ell_update (A := R)).
  destruct (C24_update_defined_partial (fun _ _ => 0) ball2 g (BScalar f)) as [Hiff Hx];
    [apply ball2_proper|exact Hg|discriminate|].
  destruct (ell_update (fun _ _ => 0, ball2) (g, BScalar f)) as [[st1 [st tsq]]|x] eqn:Eu.
  - cbn [bind].
    destruct (andb _ _); [do 5 eexists; split; [exact HP|]; split; [reflexivity|auto]|].
    destruct (status_eqb st nosoln); [do 5 eexists; split; [exact HP|]; split; [reflexivity|auto]|].
    destruct (Rltb tsq (1 / 10)); do 5 eexists; (split; [exact HP|]); (split; [reflexivity|auto]).
  - exfalso. pose proof Eu as Eu2. rewrite (Hx x Eu) in Eu2. rewrite Hf in *.
    match type of Hiff with context [sqrt ?q] => pose proof (sqrt_pos q) end.
    destruct (proj1 Hiff Eu2) as [H1 H2]. cbn in H1, H2. lra.
Qed.
