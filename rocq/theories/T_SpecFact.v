(** Property theorems about spectral_fact (C89, C90). *)
From Coq Require Import Reals Lra Psatz.
From Verif Require Import Base S_LinAlg P_LinAlg M_Misc M_SpecFact S_SpecFact P_Trig P_SpecFact T_Misc.
Local Open Scope R_scope.

(** ** C89 *)
Theorem C89_min_phase_samples :
  forall n r, (0 < n)%nat ->
    (forall k, (k < 100 * n)%nat -> power_of_autocorr n r (grid (100 * n) k) <> 0) ->
    exists h c, spectral_fact n r = Ok h /\
      causal_log (100 * n) (50 * n + 1) c (power_of_autocorr n r) /\
      (forall c', causal_log (100 * n) (50 * n + 1) c' (power_of_autocorr n r) ->
         forall l, (l < 50 * n + 1)%nat -> c' l = c l) /\
      forall k, (k < n)%nat ->
        let w := grid n k in
        resp_re n h w = exp (resp_re (50 * n + 1) c w) * cos (resp_im (50 * n + 1) c w) /\
        resp_im n h w = exp (resp_re (50 * n + 1) c w) * sin (resp_im (50 * n + 1) c w).
Proof.
  intros n r Hn. replace (100 * n)%nat with (2 * (50 * n))%nat by lia. rewrite Nat.add_1_r. intros Hnz.
  destruct (spectral_fact_spec n Hn r Hnz) as (h & E & Hh).
  destruct (causal_exists n Hn r Hnz) as (c & Hc). exists h, c.
  split; [exact E|]. split; [exact Hc|]. split.
  - intros c' Hc' l Hl. exact (causal_unique n Hn r Hnz c' c Hc' Hc l Hl).
  - intros k Hk. exact (Hh c Hc k Hk).
Qed.
Print Assumptions C89_min_phase_samples.

Theorem C89_power_samples :
  forall n r, (0 < n)%nat ->
    (forall k, (k < 100 * n)%nat -> power_of_autocorr n r (grid (100 * n) k) <> 0) ->
    exists h, spectral_fact n r = Ok h /\
      (forall k, (k < n)%nat -> power_of_response n h (grid n k) = Rabs (power_of_autocorr n r (grid n k))) /\
      0 < rsum n h.
Proof.
  intros n r Hn Hnz. destruct (C89_min_phase_samples n r Hn Hnz) as (h & c & E & Hc & _ & Hh).
  exists h. split; [exact E|]. split.
  - intros k Hk. specialize (Hh k Hk) as [H1 H2]. unfold power_of_response. rewrite H1, H2.
    assert (Hk' : (k * 100 < 100 * n)%nat) by lia.
    pose proof (Hc (k * 100)%nat Hk') as Hck. rewrite grid_mult in Hck by lia. rewrite <- Hck.
    replace (2 * resp_re (50 * n + 1) c (grid n k)) with (resp_re (50 * n + 1) c (grid n k) + resp_re (50 * n + 1) c (grid n k)) by ring.
    rewrite exp_plus. set (a := exp _). set (b := resp_im _ _ _).
    pose proof (sin2_cos2 b) as SC. unfold Rsqr in SC.
    transitivity (a * a * (sin b * sin b + cos b * cos b)); [ring|]. rewrite SC. ring.
  - specialize (Hh 0%nat Hn) as [H1 _]. cbv zeta in H1.
    assert (G : grid n 0 = 0) by (unfold grid; cbn [INR]; field; apply not_0_INR; lia). rewrite G in H1.
    assert (I : resp_im (50 * n + 1) c 0 = 0).
    { unfold resp_im. rewrite rsum_0; [ring|]. intros l _. rewrite Rmult_0_r, sin_0. ring. }
    rewrite I, cos_0, Rmult_1_r in H1.
    rewrite (rsum_ext n h (fun t => h t * cos (INR t * 0))) by (intros; rewrite Rmult_0_r, cos_0; ring).
    unfold resp_re in H1 at 1. rewrite H1. apply exp_pos.
Qed.
Print Assumptions C89_power_samples.

Theorem C89_faults :
  (forall r, spectral_fact 0 r = Raise ValueError) /\
  (forall n r k, (k < 100 * n)%nat -> power_of_autocorr n r (grid (100 * n) k) = 0 ->
     spectral_fact n r = Raise FloatFault).
Proof.
  split; [reflexivity|]. intros n r k Hk E. assert (Hn : (0 < n)%nat) by lia.
  unfold spectral_fact. destruct (Nat.eqb_spec n 0) as [|_]; [lia|].
  set (m := (100 * n)%nat) in *. cbv zeta.
  destruct (existsb _ _) eqn:B; [reflexivity|]. exfalso.
  assert (existsb (fun k => Req_bool (ndot n (fun j => match j with O => 1 | S j => 2 * cos (INR k * (2 * PI / INR m) * INR (1 + j)) end) r) 0) (seq 0 m) = true) as C.
  { apply existsb_exists. exists k. split; [apply in_seq; lia|].
    change (ndot (A := R)) with (fun n u v => rsum n (fun k => u k * v k)). cbv beta.
    rewrite power_sum by exact Hn.
    replace (INR k * (2 * PI / INR m)) with (grid m k) by (unfold grid, Rdiv; ring). rewrite E.
    unfold Req_bool. destruct (Req_EM_T 0 0); [reflexivity|lra]. }
  rewrite C in B. discriminate.
Qed.
Print Assumptions C89_faults.

(** a spectrum 1 + cos(w)/2 that is positive everywhere *)
Definition spec_ex (t : nat) : R := match t with 0%nat => 1 | 1%nat => / 4 | _ => 0 end.
Lemma spec_ex_pos w : 0 < power_of_autocorr 2 spec_ex w.
Proof.
  unfold power_of_autocorr, spec_ex. cbn [Nat.sub rsum]. pose proof (COS_bound (INR 1 * w)). lra.
Qed.
Example C89_ex : exists h, spectral_fact 2 spec_ex = Ok h /\
  power_of_response 2 h (grid 2 0) = 3 / 2 /\ power_of_response 2 h (grid 2 1) = 1 / 2.
Proof.
  destruct (C89_power_samples 2 spec_ex ltac:(lia)) as (h & E & H & _).
  { intros k _. pose proof (spec_ex_pos (grid (100 * 2) k)). lra. }
  exists h. split; [exact E|].
  rewrite !H by lia. rewrite !Rabs_right by (left; apply spec_ex_pos).
  unfold power_of_autocorr, spec_ex, grid. cbn [Nat.sub rsum INR].
  replace (1 * (2 * PI * 0 / (1 + 1))) with 0 by field. rewrite cos_0.
  replace (1 * (2 * PI * 1 / (1 + 1))) with PI by field. rewrite cos_PI. lra.
Qed.

(** ** C90 *)
Theorem C90_spectral_round_trip :
  forall n r, (0 < n)%nat ->
    (forall k, (k < 100 * n)%nat -> power_of_autocorr n r (grid (100 * n) k) <> 0) ->
    (forall k, (k < n)%nat -> 0 <= power_of_autocorr n r (grid n k)) ->
    exists h g, spectral_fact n r = Ok h /\ inverse_spectral_fact n h = Ok g /\
      g 0%nat = r 0%nat /\
      (forall t, (0 < t < n)%nat -> g t + g (n - t)%nat = r t + r (n - t)%nat) /\
      ((n <= 2)%nat -> forall t, (t < n)%nat -> g t = r t).
Proof.
  intros n r Hn Hnz Hpos. destruct (C89_power_samples n r Hn Hnz) as (h & E & HP & _).
  destruct (C48_inverse_spectral_fact n h) as (g & Eg & _ & Hg). exists h, g. split; [exact E|]. split; [exact Eg|].
  destruct (samples_determine n (fun t => g t - r t) Hn) as [D0 D1].
  { intros k Hk. rewrite power_minus. destruct (Hg Hn (grid n k)) as [Hg1 _]. unfold power_of_autocorr at 1. rewrite Hg1.
    specialize (HP k Hk). rewrite Rabs_right in HP by (apply Rle_ge; auto). rewrite <- HP.
    unfold power_of_response, resp_re, resp_im. ring. }
  assert (G0 : g 0%nat = r 0%nat) by lra.
  assert (G1 : forall t, (0 < t < n)%nat -> g t + g (n - t)%nat = r t + r (n - t)%nat).
  { intros t Ht. specialize (D1 t Ht). lra. }
  split; [exact G0|]. split; [exact G1|]. intros Hn2 t Ht.
  destruct t as [|[|t]]; [exact G0| |lia]. specialize (G1 1%nat ltac:(lia)).
  replace (n - 1)%nat with 1%nat in G1 by lia. lra.
Qed.
Print Assumptions C90_spectral_round_trip.
Example C90_ex : exists h g, spectral_fact 2 spec_ex = Ok h /\ inverse_spectral_fact 2 h = Ok g /\ g 0%nat = 1 /\ g 1%nat = / 4.
Proof.
  destruct (C90_spectral_round_trip 2 spec_ex ltac:(lia)) as (h & g & E & Eg & G0 & _ & G).
  - intros k _. pose proof (spec_ex_pos (grid (100 * 2) k)). lra.
  - intros k _. left. apply spec_ex_pos.
  - exists h, g. repeat split; try assumption. exact (G ltac:(lia) 1%nat ltac:(lia)).
Qed.
