(** Proofs about the profit oracles. *)
From Coq Require Import Reals Lra Psatz.
From Verif Require Import Base M_Drivers S_Drivers P_Drivers S_LinAlg P_LinAlg M_Ell S_Ell M_Lowpass P_Lowpass M_Profit S_Profit.
Local Open Scope R_scope.

Lemma exp_ge_1p x : 1 + x <= exp x.
Proof. destruct (Req_EM_T x 0) as [->|H]; [rewrite exp_0; lra|]. left. apply exp_ineq1; assumption. Qed.

Lemma nlog_inv x l : nlog x = Ok l -> 0 < x /\ l = ln x.
Proof. cbn. destruct (Rlt_dec 0 x); [|discriminate]. intros [= <-]. auto. Qed.
Lemma nlog_ok x : 0 < x -> nlog x = Ok (ln x).
Proof. cbn. destruct (Rlt_dec 0 x); [reflexivity|contradiction]. Qed.
Lemma ln_le_iff x y : 0 < x -> 0 < y -> (ln x <= ln y <-> x <= y).
Proof.
  intros Hx Hy. split; intros H.
  - destruct H as [H|H]; [left; apply ln_lt_inv; assumption|right; apply ln_inv; assumption].
  - destruct H as [H|H]; [left; apply ln_increasing; assumption|right; congruence].
Qed.
Lemma exp_le_iff x y : exp x <= exp y <-> x <= y.
Proof.
  split; intros H.
  - destruct H as [H|H]; [left; apply exp_lt_inv; assumption|right; apply exp_inv; assumption].
  - destruct H as [H|H]; [left; apply exp_increasing; assumption|right; congruence].
Qed.

(** log (t + v1 e^z1 + v2 e^z2) is convex for t >= 0, v >= 0: it lies above its tangents *)
Lemma logsumexp_tangent t v1 v2 y1 y2 z1 z2 :
  0 <= t -> 0 <= v1 -> 0 <= v2 ->
  let te := t + (v1 * exp y1 + v2 * exp y2) in
  let tz := t + (v1 * exp z1 + v2 * exp z2) in
  0 < te ->
  0 < tz /\ ln te + (v1 * exp y1 / te * (z1 - y1) + v2 * exp y2 / te * (z2 - y2)) <= ln tz.
Proof.
  intros Ht H1 H2 te tz Hte.
  set (q1 := v1 * exp y1) in *. set (q2 := v2 * exp y2) in *.
  set (d := q1 / te * (z1 - y1) + q2 / te * (z2 - y2)).
  assert (Hq1 : 0 <= q1) by (apply Rmult_le_pos; [assumption|left; apply exp_pos]).
  assert (Hq2 : 0 <= q2) by (apply Rmult_le_pos; [assumption|left; apply exp_pos]).
  assert (E1 : v1 * exp z1 = q1 * exp (z1 - y1 - d) * exp d).
  { unfold q1. rewrite !Rmult_assoc, <- !exp_plus. do 2 f_equal. ring. }
  assert (E2 : v2 * exp z2 = q2 * exp (z2 - y2 - d) * exp d).
  { unfold q2. rewrite !Rmult_assoc, <- !exp_plus. do 2 f_equal. ring. }
  assert (E0 : t = t * exp (- d) * exp d).
  { rewrite Rmult_assoc, <- exp_plus, Rplus_opp_l, exp_0. ring. }
  assert (Hd : te * exp d <= tz).
  { unfold tz. rewrite E1, E2. rewrite E0 at 1.
    assert (te <= t * exp (- d) + q1 * exp (z1 - y1 - d) + q2 * exp (z2 - y2 - d)).
    { pose proof (Rmult_le_compat_l t _ _ Ht (exp_ge_1p (- d))).
      pose proof (Rmult_le_compat_l q1 _ _ Hq1 (exp_ge_1p (z1 - y1 - d))).
      pose proof (Rmult_le_compat_l q2 _ _ Hq2 (exp_ge_1p (z2 - y2 - d))).
      assert (Etd : te * d = q1 * (z1 - y1) + q2 * (z2 - y2)) by (unfold d; field; lra).
      unfold te in *. lra. }
    pose proof (Rmult_le_compat_r (exp d) _ _ (Rlt_le _ _ (exp_pos d)) H). lra. }
  assert (0 < te * exp d) by (apply Rmult_lt_0_compat; [assumption|apply exp_pos]).
  split; [lra|]. rewrite <- (ln_exp d), <- ln_mult by (assumption || apply exp_pos). apply ln_le_iff; lra.
Qed.

Notation cost v y := (v 0%nat * exp (y 0%nat) + v 1%nat * exp (y 1%nat)).
Notation lin2 a y := (a 0%nat * y 0%nat + a 1%nat * y 1%nat).

Lemma profit_of_log p sc a v y : 0 < p * sc ->
  profit_of p sc a v (qty y) = exp (ln (p * sc) + lin2 a y) - cost v y.
Proof.
  intros H. unfold profit_of, qty, Rpower. rewrite !ln_exp, !exp_plus, exp_ln by assumption. ring.
Qed.

(** the attributes of an oracle made for the given parameters *)
Definition oracle_for (P : profit R) (p sc k : R) (a v : nat -> R) : Prop :=
  0 < p * sc /\ 0 < k /\ pf_log_pA P = ln (p * sc) /\ pf_log_k P = ln k /\ pf_v P = v /\ pf_a P = a.
Lemma profit_init_ok p sc k a v P : profit_init (p, sc, k) a v = Ok P -> oracle_for P p sc k a v.
Proof.
  unfold profit_init. intros H. apply bind_ok in H as (l1 & H1 & H). apply bind_ok in H as (l2 & H2 & H). injection H as <-.
  apply nlog_inv in H1 as [H1 ->]. apply nlog_inv in H2 as [H2 ->]. repeat split; assumption.
Qed.

Lemma grad2_ok q te a : te <> 0 -> grad2 q te a = Ok (pair2 (q 0%nat / te - a 0%nat) (q 1%nat / te - a 1%nat)).
Proof. intros H. unfold grad2. rewrite !rdiv_ok by assumption. reflexivity. Qed.

Lemma dot2 a b : dot 2 a b = a 0%nat * b 0%nat + a 1%nat * b 1%nat.
Proof. unfold dot, rsum; cbn. ring. Qed.

Lemma profit_call_spec P p sc k a v y t : oracle_for P p sc k a v ->
  match profit_call P y t with
  | Ok ((g, f), t1) =>
      (ln k < y 0%nat /\ g = pair2 1 0 /\ f = y 0%nat - ln k /\ t1 = None) \/
      (y 0%nat <= ln k /\ 0 < t + cost v y /\
       ((ln (t + cost v y) < ln (p * sc) + lin2 a y /\ f = 0 /\
         let te := exp (ln (p * sc) + lin2 a y) in
         t1 = Some (te - cost v y) /\ g = pair2 (v 0%nat * exp (y 0%nat) / te - a 0%nat) (v 1%nat * exp (y 1%nat) / te - a 1%nat)) \/
        (ln (p * sc) + lin2 a y <= ln (t + cost v y) /\ t1 = None /\ f = ln (t + cost v y) - (ln (p * sc) + lin2 a y) /\
         let te := t + cost v y in
         g = pair2 (v 0%nat * exp (y 0%nat) / te - a 0%nat) (v 1%nat * exp (y 1%nat) / te - a 1%nat))))
  | Raise e => e = FloatFault /\ y 0%nat <= ln k /\ t + cost v y <= 0
  end.
Proof.
  intros (H1 & H2 & E1 & E2 & E3 & E4). unfold profit_call. rewrite E1, E2, E3, E4.
  change (nltb (A := R)) with Rltb. change (@nzero R RNum) with 0.
  destruct (Rltb 0 _) eqn:B; [apply Rltb_true in B|apply Rltb_false in B]; cbn [nsub RNum] in B.
  { left. repeat split; lra. }
  cbn [nadd nmul nsub ndot nexp RNum RNumT].
  destruct (Rlt_dec 0 (t + cost v y)) as [Hte|Hte].
  2:{ unfold nlog, RNumT. destruct (Rlt_dec 0 _); [lra|]. cbn [bind]. split; [reflexivity|]. split; lra. }
  rewrite nlog_ok by assumption. cbn [bind].
  assert (Ed : rsum 2 (fun k => a k * y k) = lin2 a y) by (unfold rsum; ring). rewrite Ed.
  destruct (Rltb _ 0) eqn:B2; [apply Rltb_true in B2|apply Rltb_false in B2].
  - rewrite grad2_ok by (pose proof (exp_pos (ln (p * sc) + lin2 a y)); lra). cbn [bind].
    right. split; [lra|]. split; [assumption|]. left. split; [lra|]. split; [reflexivity|]. split; reflexivity.
  - rewrite grad2_ok by lra. cbn [bind]. right. split; [lra|]. split; [assumption|]. right.
    split; [lra|]. split; [reflexivity|]. split; reflexivity.
Qed.

Lemma lt_profit p sc a v y t : 0 < p * sc -> 0 < t + cost v y ->
  (ln (t + cost v y) < ln (p * sc) + lin2 a y <-> t < profit_of p sc a v (qty y)).
Proof.
  intros Hp Ht. rewrite profit_of_log by assumption.
  rewrite <- (ln_exp (ln (p * sc) + lin2 a y)) at 1. split; intros H.
  - apply ln_lt_inv in H; [lra|assumption|apply exp_pos].
  - apply ln_increasing; lra.
Qed.

Lemma profit_cut_valid P p sc k a v y t g f t1 z :
  oracle_for P p sc k a v -> 0 <= v 0%nat -> 0 <= v 1%nat -> 0 <= t ->
  profit_call P y t = Ok ((g, f), t1) ->
  z 0%nat <= ln k -> best t t1 <= profit_of p sc a v (qty z) ->
  dot 2 g (fun i => z i - y i) + f <= 0.
Proof.
  intros HP Hv0 Hv1 Ht H Hk Hz. pose proof (profit_call_spec P p sc k a v y t HP) as Hs. rewrite H in Hs.
  pose proof HP as (Hpos & _). rewrite profit_of_log in Hz by assumption. rewrite dot2.
  pose proof (exp_pos (ln (p * sc) + lin2 a z)) as Hez.
  destruct Hs as [(_ & -> & -> & ->)|(Hy & Hte & [(Hlt & -> & -> & ->)|(Hle & -> & -> & ->)])]; cbn [pair2 best] in *.
  - lra.
  - set (te := exp (ln (p * sc) + lin2 a y)) in *.
    pose proof (proj1 (lt_profit p sc a v y t Hpos Hte) Hlt) as Hp. rewrite profit_of_log in Hp by assumption. fold te in Hp.
    assert (Ete : te - cost v y + (v 0%nat * exp (y 0%nat) + v 1%nat * exp (y 1%nat)) = te) by ring.
    pose proof (logsumexp_tangent (te - cost v y) (v 0%nat) (v 1%nat) (y 0%nat) (y 1%nat) (z 0%nat) (z 1%nat)
      ltac:(lra) Hv0 Hv1) as Htan. cbv zeta in Htan. rewrite Ete in Htan.
    destruct Htan as [Hz1 Htan]; [apply exp_pos|].
    assert (Hln : ln (te - cost v y + cost v z) <= ln (p * sc) + lin2 a z).
    { rewrite <- (ln_exp (ln (p * sc) + lin2 a z)). apply ln_le_iff; [assumption..|lra]. }
    unfold te at 1 in Htan. rewrite ln_exp in Htan. lra.
  - pose proof (logsumexp_tangent t (v 0%nat) (v 1%nat) (y 0%nat) (y 1%nat) (z 0%nat) (z 1%nat) Ht Hv0 Hv1 Hte) as [Hz1 Htan].
    assert (Hln : ln (t + cost v z) <= ln (p * sc) + lin2 a z).
    { rewrite <- (ln_exp (ln (p * sc) + lin2 a z)). apply ln_le_iff; [assumption..|lra]. }
    lra.
Qed.

Lemma profit_report P p sc k a v y t g f s : oracle_for P p sc k a v ->
  profit_call P y t = Ok ((g, f), Some s) ->
  y 0%nat <= ln k /\ s = profit_of p sc a v (qty y) /\ t < s /\ f = 0.
Proof.
  intros HP H. pose proof (profit_call_spec P p sc k a v y t HP) as Hs. rewrite H in Hs. pose proof HP as (Hpos & _).
  destruct Hs as [(_ & _ & _ & E)|(Hy & Hte & [(Hlt & -> & E & _)|(_ & E & _)])]; try discriminate.
  cbv zeta in E. injection E as ->.
  split; [exact Hy|]. split; [symmetry; apply profit_of_log; assumption|]. split; [|reflexivity].
  pose proof (proj1 (lt_profit p sc a v y t Hpos Hte) Hlt) as Hp. rewrite profit_of_log in Hp by assumption. exact Hp.
Qed.

(** ** the robust oracle *)
Definition rb_for (o : profit_rb R) (p sc k : R) (a v : nat -> R) (e1 e2 e3 e4 e5 : R) : Prop :=
  rb_a o = a /\ rb_e o = pair2 e1 e2 /\ exists a0, oracle_for (rb_P o) (p - e3) sc (k - e4) a0 (fun i => v i + e5).
Lemma profit_rb_init_ok p sc k a v e1 e2 e3 e4 e5 o :
  profit_rb_init (p, sc, k) a v (e1, e2, e3, e4, e5) = Ok o -> rb_for o p sc k a v e1 e2 e3 e4 e5.
Proof.
  unfold profit_rb_init. intros H. apply bind_ok in H as (P & HP & H). injection H as <-.
  apply profit_init_ok in HP. split; [reflexivity|]. split; [reflexivity|]. exists a. exact HP.
Qed.
Definition rb_exp a e1 e2 (y : nat -> R) : nat -> R :=
  pair2 (a 0%nat + (if Rltb 0 (y 0%nat) then - e1 else e1)) (a 1%nat + (if Rltb 0 (y 1%nat) then - e2 else e2)).
Lemma rb_call_inv o p sc k a v e1 e2 e3 e4 e5 y t o' r : rb_for o p sc k a v e1 e2 e3 e4 e5 ->
  profit_rb_call o y t = Ok (o', r) ->
  rb_for o' p sc k a v e1 e2 e3 e4 e5 /\
  exists P, oracle_for P (p - e3) sc (k - e4) (rb_exp a e1 e2 y) (fun i => v i + e5) /\ profit_call P y t = Ok r.
Proof.
  intros (Ea & Ee & a0 & H1 & H2 & E1 & E2 & E3 & E4) H. unfold profit_rb_call in H.
  apply bind_ok in H as (r' & Hr & H). injection H as <- <-.
  assert (Ex : rb_exponents o y = rb_exp a e1 e2 y).
  { unfold rb_exponents. rewrite Ea, Ee. reflexivity. }
  rewrite Ex in *. split.
  - split; [exact Ea|]. split; [exact Ee|]. exists (rb_exp a e1 e2 y). repeat split; assumption.
  - eexists; split; [|exact Hr]. repeat split; assumption.
Qed.
Lemma rb_worst a e1 e2 y : 0 <= e1 -> 0 <= e2 ->
  within e1 (a 0%nat) (rb_exp a e1 e2 y 0%nat) /\ within e2 (a 1%nat) (rb_exp a e1 e2 y 1%nat) /\
  forall a', within e1 (a 0%nat) (a' 0%nat) -> within e2 (a 1%nat) (a' 1%nat) -> lin2 (rb_exp a e1 e2 y) y <= lin2 a' y.
Proof.
  intros H1 H2. unfold within, rb_exp; cbn [pair2]. split; [destruct (Rltb _ _); lra|]. split; [destruct (Rltb _ _); lra|].
  intros a' [A1 A2] [A3 A4].
  assert (forall c e c' u, c - e <= c' <= c + e -> (c + (if Rltb 0 u then - e else e)) * u <= c' * u) as Hm.
  { intros c e c' u Hc. destruct (Rltb 0 u) eqn:B; [apply Rltb_true in B|apply Rltb_false in B]; nra. }
  pose proof (Hm (a 0%nat) e1 (a' 0%nat) (y 0%nat) (conj A1 A2)). pose proof (Hm (a 1%nat) e2 (a' 1%nat) (y 1%nat) (conj A3 A4)). lra.
Qed.
Lemma rb_guaranteed p sc k a v e1 e2 e3 e4 e5 y : 0 < (p - e3) * sc -> 0 < sc -> 0 < k - e4 ->
  0 <= e1 -> 0 <= e2 -> 0 <= e3 -> 0 <= e4 -> 0 <= e5 -> forall t,
  (y 0%nat <= ln (k - e4) /\ t <= profit_of (p - e3) sc (rb_exp a e1 e2 y) (fun i => v i + e5) (qty y)) <->
  guaranteed p sc k a v e1 e2 e3 e4 e5 t (qty y).
Proof.
  intros Hp Hsc Hk H1 H2 H3 H4 H5 t. destruct (rb_worst a e1 e2 y H1 H2) as (W1 & W2 & W). split.
  - intros [Hy Ht] p' k' a' v' Bp Bk Ba0 Ba1 Bv0 Bv1. unfold within in *. split.
    + unfold qty. apply exp_le_iff in Hy. rewrite exp_ln in Hy by assumption. lra.
    + eapply Rle_trans; [exact Ht|].
      assert (Hp' : 0 < p' * sc) by (assert (0 < p - e3) by nra; apply Rmult_lt_0_compat; lra).
      rewrite !profit_of_log by assumption. specialize (W a' Ba0 Ba1).
      assert (exp (ln ((p - e3) * sc) + lin2 (rb_exp a e1 e2 y) y) <= exp (ln (p' * sc) + lin2 a' y)).
      { apply exp_le_iff. apply Rplus_le_compat; [|exact W]. apply ln_le_iff; [assumption..|]. apply Rmult_le_compat_r; lra. }
      pose proof (exp_pos (y 0%nat)). pose proof (exp_pos (y 1%nat)). cbv beta. nra.
  - intros HG. destruct (HG (p - e3) (k - e4) (rb_exp a e1 e2 y) (fun i => v i + e5)) as [G1 G2]; try (unfold within; lra); try assumption.
    split; [|exact G2]. unfold qty in G1. rewrite <- (ln_exp (y 0%nat)). apply ln_le_iff; [apply exp_pos|assumption|exact G1].
Qed.

(** ** rounding *)
Lemma Rround_int x : exists n, Rround x = IZR n.
Proof. unfold Rround. destruct (Rlt_dec _ _); [eauto|]. destruct (Rlt_dec _ _); [eauto|]. destruct (Z.even _); eauto. Qed.
Lemma Rround_nearest x : Rabs (Rround x - x) <= 1 / 2.
Proof.
  unfold Rround. destruct (base_Int_part x) as [H1 H2].
  destruct (Rlt_dec _ _) as [D|D]; [apply Rabs_le; lra|].
  destruct (Rlt_dec _ _) as [D'|D']; [rewrite plus_IZR; apply Rabs_le; lra|].
  destruct (Z.even _); rewrite ?plus_IZR; apply Rabs_le; lra.
Qed.
Lemma Rround_pos x : 0 < x -> exists n, (0 <= n)%Z /\ Rround x = IZR n.
Proof.
  intros Hx. destruct (Rround_int x) as (n & E). exists n. split; [|exact E].
  pose proof (Rround_nearest x) as H. rewrite E in H. assert (- (1 / 2) <= IZR n - x <= 1 / 2) by (revert H; unfold Rabs; destruct (Rcase_abs _); lra).
  assert (-1 < IZR n) as Hn by lra. apply lt_IZR in Hn. lia.
Qed.
Lemma round_point_ok y : exists yd, round_point y = Ok yd /\ integral (qty yd) /\
  (forall i, (i < 2)%nat -> exp (yd i) = 1 /\ Rround (exp (y i)) = 0 \/ exp (yd i) = Rround (exp (y i))).
Proof.
  assert (Hx : forall i, exists m, (0 < m)%Z /\ (if neqb (nround (nexp (y i))) nzero then none else nround (nexp (y i))) = IZR m
    /\ (IZR m = 1 /\ Rround (exp (y i)) = 0 \/ IZR m = Rround (exp (y i)))).
  { intros i. cbn [neqb RNum nround nexp RNumT nzero none].
    destruct (Rround_pos (exp (y i)) (exp_pos _)) as (n & Hn & E). rewrite E.
    destruct (Req_bool (IZR n) 0) eqn:B; [apply Reqb_true in B|apply Reqb_false in B].
    - exists 1%Z. split; [lia|]. split; [reflexivity|]. left. split; [reflexivity|exact B].
    - exists n. split; [|split; [reflexivity|right; reflexivity]].
      destruct (Z.eq_dec n 0) as [->|?]; [congruence|lia]. }
  destruct (Hx 0%nat) as (m & Hm & Em & Rm). destruct (Hx 1%nat) as (n & Hn & En & Rn).
  unfold round_point. rewrite Em, En.
  rewrite !nlog_ok by (apply IZR_lt; assumption). cbn [bind]. eexists. split; [reflexivity|].
  assert (0 < IZR m) by (apply IZR_lt; assumption). assert (0 < IZR n) by (apply IZR_lt; assumption). split.
  - exists m, n. unfold qty. cbn [pair2]. rewrite !exp_ln by assumption. auto.
  - intros [|[|i]] Hi; [| |lia]; cbn [pair2]; rewrite exp_ln by assumption; assumption.
Qed.
