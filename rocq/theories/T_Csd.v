(** Property theorems for the CSD converter (csd.py) *)
From Coq Require Import Setoid Morphisms QArith Qabs Qround Qpower Lqa Ascii String ZArith.
From Verif Require Import Base M_Csd S_Csd P_Csd P_Csd2.
Local Open Scope Q_scope.

(** ** glue *)
Lemma inject_abs_lt1 k : Qabs (inject_Z k) < 1 -> k = 0%Z.
Proof. intros H. apply Qabs_lt in H as [H1 H2]. change 1 with (inject_Z 1) in *. change (- inject_Z 1) with (inject_Z (-1)) in H1.
  rewrite <- Zlt_Qlt in *. lia. Qed.
Lemma wf_prefix x s : well_formed s -> well_formed ((if Qltb (Qabs x) 1 then [cZero] else []) ++ s).
Proof. intros H. destruct (Qltb (Qabs x) 1); cbn [app]; [constructor; [left; reflexivity|assumption]|assumption]. Qed.
Lemma points_prefix (b : bool) s : points ((if b then [cZero] else []) ++ s) = points s.
Proof. destruct b; reflexivity. Qed.
Lemma canonical_prefix (b : bool) s : canonical s -> canonical ((if b then [cZero] else []) ++ s).
Proof. intros H. destruct b; [apply canonical_zero_prefix; exact H|exact H]. Qed.

Lemma to_csd_all x places : (0 <= places)%Z ->
  exists s v, to_csd x places = Ok s /\ well_formed s /\ (points s <= 1)%nat /\
    to_decimal s = Ok v /\
    Qabs (v - x) < / inject_Z (2 ^ places) /\
    (Qabs x <= (2#3) \/ 1 <= Qabs x -> canonical s /\ Qabs (v - x) <= (2#3) * / inject_Z (2 ^ places)) /\
    (1 <= Qabs x -> starts_nonzero s) /\
    (forall k, x * inject_Z (2 ^ places) == inject_Z k -> v == x).
Proof.
  intros Hp. assert (Hpp := pow2_pos (Z.to_nat places)). rewrite Z2Nat.id in Hpp by lia.
  unfold to_csd. destruct (Qeq_bool x 0) eqn:B0.
  - apply Qeq_bool_eq in B0. exists [cZero], 0.
    assert (Hz : Qabs (0 - x) == 0) by (rewrite B0; reflexivity).
    assert (Hi : 0 < / inject_Z (2 ^ places)) by (apply Qinv_lt_0_compat; assumption).
    repeat split.
    + repeat constructor.
    + cbn. lia.
    + rewrite Hz. assumption.
    + intros [|a [|b s1]] ? ? ? E; cbn in E; inversion E; destruct s1; discriminate.
    + rewrite Hz. lra.
    + intros H. rewrite B0 in H. change (Qabs 0) with 0 in H. lra.
    + intros k _. rewrite B0. reflexivity.
  - apply Qeq_bool_neq in B0. destruct (csd_n_spec x B0) as [Hn0 Hn1].
    assert (Hn : (0 <= csd_n x)%Z).
    { destruct (Qlt_le_dec (Qabs x) 1) as [H|H]; [rewrite Hn0 by assumption; lia|destruct (Hn1 H); lia]. }
    assert (Hlt : Qabs x < 2 ^ csd_n x).
    { destruct (Qlt_le_dec (Qabs x) 1) as [H|H]; [rewrite Hn0 by assumption; exact H|].
      destruct (Hn1 H) as (_ & _ & H2). rewrite <- pow_S. pose proof (pow_pos (csd_n x - 1)). lra. }
    destruct (to_csd_from_spec (csd_n x) x places Hp Hn Hlt) as (s & r & ds & E & Es & Ha & Hl & Hv & Hr & Hc & Hh).
    assert (Hwf : well_formed s) by (subst s; apply wf_prefix, wf_ins, Ha).
    destruct (to_decimal_ok s Hwf) as (v & Ev & Hv2).
    assert (Hvr : Qabs (v - x) == Qabs r).
    { setoid_replace (v - x) with (- r) by (rewrite Hv2, Hv; ring). apply Qabs_opp. }
    exists s, v. split; [exact E|]. split; [exact Hwf|]. split; [subst s; rewrite points_prefix; apply points_ins, Ha|].
    split; [exact Ev|]. rewrite Hvr. split; [exact Hr|]. split; [|split].
    + intros H. destruct Hc as [H1 H2].
      { destruct H as [H|H].
        - destruct (Qlt_le_dec (Qabs x) 1) as [H'|H']; [|lra]. rewrite Hn0 by assumption. change (2 ^ 0) with 1. lra.
        - destruct (Hn1 H) as (_ & _ & H2). rewrite <- pow_S. lra. }
      split; [|exact H2]. subst s. apply canonical_prefix, canon_canonical; assumption.
    + intros H. subst s. destruct (Qltb (Qabs x) 1) eqn:B; [apply Qltb_true in B; lra|]. cbn [app].
      destruct (Hn1 H) as (H1 & H2 & _). specialize (Hh H2).
      destruct ds as [|c ds]; [cbn in Hl; lia|]. cbn [ins]. destruct (Z.eqb_spec (csd_n x) 0); [lia|].
      cbn [app]. eexists _, _. split; [reflexivity|exact Hh].
    + intros k Hk. rewrite Hv2, Hv.
      assert (Hd : csd_value s * inject_Z (2 ^ places) == inject_Z (sd_value ds)).
      { assert (Ed : csd_value s == dsum (2 ^ (csd_n x - 1)) ds).
        { subst s. rewrite <- ins_value by (assumption || lia).
          destruct (Qltb (Qabs x) 1); cbn [app]; [apply value_zero_prefix|reflexivity]. }
        pose proof (dsum_value ds (2 ^ (csd_n x - 1))) as H. rewrite pow_S, Hl, Z2Nat.id in H by lia.
        rewrite Z.pow_add_r, inject_Z_mult in H by lia. change (2 ^ csd_n x) with (inject_Z 2 ^ csd_n x) in H.
        rewrite <- Zpower_Qpower in H by lia. rewrite Ed.
        assert (Hq := pow2_pos (Z.to_nat (csd_n x))). rewrite Z2Nat.id in Hq by lia.
        apply Qmult_inj_l with (z := inject_Z (2 ^ csd_n x)); [lra|]. rewrite <- H. ring. }
      assert (Hrk : r * inject_Z (2 ^ places) == inject_Z (k - sd_value ds)).
      { unfold Z.sub. rewrite inject_Z_plus, inject_Z_opp, <- Hd, <- Hk. rewrite Hv. ring. }
      assert (Hz : (k - sd_value ds)%Z = 0%Z).
      { apply inject_abs_lt1. rewrite <- Hrk, Qabs_Qmult, (Qabs_pos (inject_Z (2 ^ places))) by lra.
        assert (H1 : / inject_Z (2 ^ places) * inject_Z (2 ^ places) == 1) by (field; lra).
        rewrite <- H1. apply Qmult_lt_compat_r; assumption. }
      rewrite Hz in Hrk. change (inject_Z 0) with 0 in Hrk.
      apply Qmult_integral in Hrk as [Hrk|Hrk]; [|lra]. rewrite Hrk. ring.
Qed.

(** ** C49: accuracy and exactness *)

(** The accuracy half of C49, outside 2/3 < |x| < 1; inside that gap it is false (refuted below; the
    bound that does hold everywhere is C69). *)
Theorem C49_csd_accurate_partial : forall x places, (0 <= places)%Z ->
  Qabs x <= (2#3) \/ 1 <= Qabs x ->
  exists s v, to_csd x places = Ok s /\ to_decimal s = Ok v /\
    Qabs (v - x) <= (2#3) * / inject_Z (2 ^ places).
Proof.
  intros x places Hp Hx. destruct (to_csd_all x places Hp) as (s & v & E & _ & _ & Ev & _ & H & _).
  exists s, v. split; [exact E|]. split; [exact Ev|]. apply H, Hx.
Qed.
Print Assumptions C49_csd_accurate_partial.
Example C49_ex : exists s v, to_csd (57#2) 2 = Ok s /\ to_decimal s = Ok v /\ s = chars_of "+00-00.+0" /\ v == (57#2).
Proof. eexists _, _. split; [vm_compute; reflexivity|]. split; [vm_compute; reflexivity|]. split; vm_compute; reflexivity. Qed.

(** The exactness half, for every x and every places. *)
Theorem C49_csd_exact : forall x places k, (0 <= places)%Z ->
  x == inject_Z k / inject_Z (2 ^ places) ->
  exists s v, to_csd x places = Ok s /\ to_decimal s = Ok v /\ v == x.
Proof.
  intros x places k Hp Hx. destruct (to_csd_all x places Hp) as (s & v & E & _ & _ & Ev & _ & _ & _ & H).
  exists s, v. split; [exact E|]. split; [exact Ev|]. apply (H k).
  assert (Hpp := pow2_pos (Z.to_nat places)). rewrite Z2Nat.id in Hpp by lia. rewrite Hx. field. lra.
Qed.
Print Assumptions C49_csd_exact.

(** x = 0.99 with one place gives "0.+", off by 0.49 > (2/3)/2. *)
Theorem C49_csd_accurate_refuted :
  ~ (forall x places, (0 <= places)%Z ->
       exists s v, to_csd x places = Ok s /\ to_decimal s = Ok v /\
         Qabs (v - x) <= (2#3) * / inject_Z (2 ^ places)).
Proof.
  intros H. destruct (H (99#100) 1%Z ltac:(lia)) as (s & v & E & Ev & Hd).
  vm_compute in E. injection E as <-. vm_compute in Ev. injection Ev as <-. vm_compute in Hd. apply Hd. reflexivity.
Qed.
Print Assumptions C49_csd_accurate_refuted.

(** ** C69: the accuracy that holds for every x, also when the float logarithm overestimates n *)
Theorem C69_csd_error : forall x places, (0 <= places)%Z ->
  exists s v, to_csd x places = Ok s /\ to_decimal s = Ok v /\ Qabs (v - x) < / inject_Z (2 ^ places).
Proof.
  intros x places Hp. destruct (to_csd_all x places Hp) as (s & v & E & _ & _ & Ev & H & _).
  exists s, v. auto.
Qed.
Print Assumptions C69_csd_error.
Theorem C69_csd_error_any_start : forall n x places, (0 <= places)%Z -> (0 <= n)%Z -> Qabs x < 2 ^ n ->
  exists s v, to_csd_from n x places = Ok s /\ well_formed s /\ (points s <= 1)%nat /\
    to_decimal s = Ok v /\ Qabs (v - x) < / inject_Z (2 ^ places) /\
    (Qabs x <= (2#3) * 2 ^ n -> canonical s /\ Qabs (v - x) <= (2#3) * / inject_Z (2 ^ places)).
Proof.
  intros n x places Hp Hn Hx.
  destruct (to_csd_from_spec n x places Hp Hn Hx) as (s & r & ds & E & Es & Ha & Hl & Hv & Hr & Hc & Hh).
  assert (Hwf : well_formed s) by (subst s; apply wf_prefix, wf_ins, Ha).
  destruct (to_decimal_ok s Hwf) as (v & Ev & Hv2).
  assert (Hvr : Qabs (v - x) == Qabs r).
  { setoid_replace (v - x) with (- r) by (rewrite Hv2, Hv; ring). apply Qabs_opp. }
  exists s, v. split; [exact E|]. split; [exact Hwf|]. split; [subst s; rewrite points_prefix; apply points_ins, Ha|].
  split; [exact Ev|]. rewrite Hvr. split; [exact Hr|]. intros H. destruct (Hc H) as [H1 H2]. split; [|exact H2].
  subst s. apply canonical_prefix, canon_canonical; assumption.
Qed.
Print Assumptions C69_csd_error_any_start.
Example C69_ex : to_csd (99#100) 1 = Ok (chars_of "0.+") /\ to_csd_from 3 (-(19#4)) 2 = Ok (chars_of "-0-.0+").
Proof. split; vm_compute; reflexivity. Qed.

(** ** C50: canonical form *)
Theorem C50_csd_shape : forall x places, (0 <= places)%Z ->
  exists s, to_csd x places = Ok s /\ well_formed s /\ (points s <= 1)%nat /\ (1 <= Qabs x -> starts_nonzero s).
Proof.
  intros x places Hp. destruct (to_csd_all x places Hp) as (s & v & E & Hw & Hpt & _ & _ & _ & H & _).
  exists s. auto.
Qed.
Print Assumptions C50_csd_shape.
(** Canonicity of to_csd outside 2/3 < |x| < 1. *)
Theorem C50_csd_canonical_partial : forall x places, (0 <= places)%Z -> Qabs x <= (2#3) \/ 1 <= Qabs x ->
  exists s, to_csd x places = Ok s /\ canonical s.
Proof.
  intros x places Hp Hx. destruct (to_csd_all x places Hp) as (s & v & E & _ & _ & _ & _ & H & _).
  exists s. split; [exact E|]. apply H, Hx.
Qed.
Print Assumptions C50_csd_canonical_partial.
Theorem C50_csd_canonical_refuted :
  ~ (forall x places, (0 <= places)%Z -> exists s, to_csd x places = Ok s /\ canonical s).
Proof.
  intros H. destruct (H (3#4) 2%Z ltac:(lia)) as (s & E & Hc). vm_compute in E. injection E as <-.
  destruct (Hc [cZero] cPlus cPlus [] eq_refl); discriminate.
Qed.
Print Assumptions C50_csd_canonical_refuted.

(** ** to_csdfixed *)
Lemma nonzeros_ins ds : forall n, nonzeros (ins n ds) = nonzeros ds.
Proof.
  unfold nonzeros. induction ds as [|c ds IH]; intros n; [reflexivity|]. cbn [ins].
  assert (E : forall b, length (filter (fun c => negb (dv c =? 0)%Z) ((if b : bool then [cPoint] else []) ++ c :: ins (n - 1) ds))
    = length (filter (fun c => negb (dv c =? 0)%Z) (c :: ins (n - 1) ds))) by (intros []; reflexivity).
  rewrite E. cbn [filter]. destruct (negb (dv c =? 0)%Z); cbn [length]; rewrite IH; reflexivity.
Qed.
Lemma nonzeros_prefix (b : bool) s : nonzeros ((if b then [cZero] else []) ++ s) = nonzeros s.
Proof. destruct b; reflexivity. Qed.

Lemma to_csdfixed_from_all n x nnz : (1 <= nnz)%Z -> (0 <= n)%Z -> Qabs x < 2 ^ n ->
  exists s v, to_csdfixed_from n x nnz = Ok s /\ well_formed s /\ (points s <= 1)%nat /\
    (Z.of_nat (nonzeros s) <= nnz)%Z /\
    to_decimal s = Ok v /\
    (Qabs (v - x) <= tiny \/ Qabs (v - x) * inject_Z (2 ^ nnz) <= Qabs x) /\
    (Qabs x <= (2#3) * 2 ^ n -> canonical s) /\
    (1 <= Qabs x -> (2#3) * 2 ^ (n - 1) < Qabs x -> starts_nonzero s).
Proof.
  intros Hnn Hn Hx. unfold to_csdfixed_from.
  destruct (csdfixed_loop_spec (Z.to_nat n + 340) n nnz (2 ^ (n - 1)) x)
    as (ds & r & E & Ha & Hl & Hcnt & Hd & Hr & Hcan & _ & Hh).
  { assumption. } { apply pow_pos. } { apply pow_S. } { rewrite pow_S. exact Hx. } { lia. } { lia. }
  rewrite E. cbn [bind]. set (s := _ ++ ins n ds).
  assert (Hwf : well_formed s) by (apply wf_prefix, wf_ins, Ha).
  destruct (to_decimal_ok s Hwf) as (v & Ev & Hv2).
  assert (Es : csd_value s == dsum (2 ^ (n - 1)) ds).
  { unfold s. rewrite <- ins_value by (assumption || lia).
    destruct (Qltb (Qabs x) 1); cbn [app]; [apply value_zero_prefix|reflexivity]. }
  assert (Hvr : Qabs (v - x) == Qabs r).
  { setoid_replace (v - x) with (- r) by (rewrite Hv2, Es, Hd; ring). apply Qabs_opp. }
  exists s, v. split; [reflexivity|]. split; [exact Hwf|].
  split; [unfold s; rewrite points_prefix; apply points_ins, Ha|].
  split; [unfold s; rewrite nonzeros_prefix, nonzeros_ins; exact Hcnt|].
  split; [exact Ev|]. rewrite Hvr. split; [exact Hr|]. split.
  - intros H. apply canonical_prefix, canon_canonical; [assumption|]. apply Hcan. rewrite <- pow_S in H. lra.
  - intros H1 H2. unfold s. destruct (Qltb (Qabs x) 1) eqn:B; [apply Qltb_true in B; lra|]. cbn [app].
    assert (Hn1 : (1 <= n)%Z).
    { destruct (Z.eq_dec n 0) as [->|]; [|lia]. change (2 ^ 0) with 1 in Hx. lra. }
    specialize (Hh H2). destruct ds as [|c ds]; [cbn in Hl; lia|]. cbn [ins]. destruct (Z.eqb_spec n 0); [lia|].
    cbn [app]. eexists _, _. split; [reflexivity|exact Hh].
Qed.

Lemma csd_n_bounds x : ~ x == 0 -> (0 <= csd_n x)%Z /\ Qabs x < 2 ^ csd_n x /\
  (1 <= Qabs x -> (2#3) * 2 ^ (csd_n x - 1) < Qabs x) /\
  (Qabs x <= (2#3) \/ 1 <= Qabs x -> Qabs x <= (2#3) * 2 ^ csd_n x).
Proof.
  intros B0. destruct (csd_n_spec x B0) as [Hn0 Hn1].
  destruct (Qlt_le_dec (Qabs x) 1) as [H|H].
  - rewrite Hn0 by assumption. change (2 ^ 0) with 1. split; [lia|]. split; [exact H|]. split; intros; lra.
  - destruct (Hn1 H) as (H1 & H2 & H3). pose proof (pow_pos (csd_n x - 1)). rewrite <- pow_S.
    split; [lia|]. split; [lra|]. split; intros; lra.
Qed.

Lemma to_csdfixed_all x nnz : (1 <= nnz)%Z ->
  exists s v, to_csdfixed x nnz = Ok s /\ well_formed s /\ (points s <= 1)%nat /\
    (Z.of_nat (nonzeros s) <= nnz)%Z /\
    to_decimal s = Ok v /\
    (Qabs (v - x) <= tiny \/ Qabs (v - x) * inject_Z (2 ^ nnz) <= Qabs x) /\
    (Qabs x <= (2#3) \/ 1 <= Qabs x -> canonical s) /\
    (1 <= Qabs x -> starts_nonzero s).
Proof.
  intros Hnn. unfold to_csdfixed. destruct (Qeq_bool x 0) eqn:B0.
  - apply Qeq_bool_eq in B0. exists [cZero], 0. repeat split.
    + repeat constructor.
    + cbn. lia.
    + cbn. lia.
    + left. rewrite B0. vm_compute. discriminate.
    + intros _ [|a [|b s1]] ? ? ? E; cbn in E; inversion E; destruct s1; discriminate.
    + intros H. rewrite B0 in H. change (Qabs 0) with 0 in H. lra.
  - apply Qeq_bool_neq in B0. destruct (csd_n_bounds x B0) as (Hn & Hlt & Hlow & Hcan).
    destruct (to_csdfixed_from_all (csd_n x) x nnz Hnn Hn Hlt) as (s & v & E & Hw & Hp & Hc & Ev & Hr & H1 & H2).
    exists s, v. repeat split; auto.
Qed.

Theorem C50_csdfixed_shape : forall x nnz, (1 <= nnz)%Z ->
  exists s, to_csdfixed x nnz = Ok s /\ well_formed s /\ (points s <= 1)%nat /\ (1 <= Qabs x -> starts_nonzero s).
Proof.
  intros x nnz Hn. destruct (to_csdfixed_all x nnz Hn) as (s & v & E & Hw & Hp & _ & _ & _ & _ & H). exists s. auto.
Qed.
Print Assumptions C50_csdfixed_shape.
Theorem C50_csdfixed_canonical_partial : forall x nnz, (1 <= nnz)%Z -> Qabs x <= (2#3) \/ 1 <= Qabs x ->
  exists s, to_csdfixed x nnz = Ok s /\ canonical s.
Proof.
  intros x nnz Hn Hx. destruct (to_csdfixed_all x nnz Hn) as (s & v & E & _ & _ & _ & _ & _ & H & _).
  exists s. split; [exact E|]. apply H, Hx.
Qed.
Print Assumptions C50_csdfixed_canonical_partial.
Example C50_ex : to_csdfixed (57#2) 2 = Ok (chars_of "+00-00") /\ to_csdfixed (1#5) 3 = Ok (chars_of "0.0+0-0+").
Proof. split; vm_compute; reflexivity. Qed.
Theorem C50_csdfixed_canonical_refuted :
  ~ (forall x nnz, (1 <= nnz)%Z -> exists s, to_csdfixed x nnz = Ok s /\ canonical s).
Proof.
  intros H. destruct (H (3#4) 2%Z ltac:(lia)) as (s & E & Hc). vm_compute in E. injection E as <-.
  destruct (Hc [cZero] cPlus cPlus [] eq_refl); discriminate.
Qed.
Print Assumptions C50_csdfixed_canonical_refuted.

(** ** C51: round trip *)
Lemma canonical_canon ds : alld ds -> (forall s1 a b s2, ds = s1 ++ a :: b :: s2 -> dv a = 0%Z \/ dv b = 0%Z) -> canon ds.
Proof.
  induction 1 as [|c ds Hc Ha IH]; intros H; cbn [canon]; [exact I|]. split.
  - destruct ds as [|d ds']; [exact I|]. apply (H [] c d ds' eq_refl).
  - apply IH. intros s1 a b s2 E. apply (H (c :: s1) a b s2). rewrite E. reflexivity.
Qed.
Lemma ins_all ds : forall n, (Z.of_nat (List.length ds) <= n)%Z -> ins n ds = ds.
Proof.
  induction ds as [|c ds IH]; intros n Hn; [reflexivity|]. cbn [ins List.length] in *.
  destruct (Z.eqb_spec n 0); [lia|]. cbn [app]. rewrite IH by lia. reflexivity.
Qed.
Lemma ins_split a : forall b, b <> [] -> ins (Z.of_nat (List.length a)) (a ++ b) = a ++ cPoint :: b.
Proof.
  induction a as [|c a IH]; intros b Hb; cbn [List.length app ins].
  - destruct b as [|d b]; [contradiction|]. cbn [ins Z.of_nat Z.eqb app]. rewrite ins_len_neg by lia. reflexivity.
  - destruct (Z.eqb_spec (Z.of_nat (S (List.length a))) 0); [lia|]. cbn [app].
    replace (Z.of_nat (S (List.length a)) - 1)%Z with (Z.of_nat (List.length a)) by lia.
    rewrite IH by assumption. reflexivity.
Qed.

Theorem C51_round_trip_integer : forall s, Forall (fun c => sd_char c = true) s -> canonical s -> starts_nonzero s ->
  exists v, to_decimal s = Ok v /\ to_csd v 0 = Ok s.
Proof.
  intros s Ha Hc Hs.
  assert (Hwf : well_formed s) by (eapply Forall_impl; [|exact Ha]; cbn; auto).
  destruct (to_decimal_ok s Hwf) as (v & Ev & Hv). exists v. split; [exact Ev|].
  assert (Hcan : canon s).
  { apply canonical_canon; [assumption|]. intros s1 a b s2 E. apply (Hc s1 a b s2). rewrite sdigits_alld by assumption. exact E. }
  set (n := Z.of_nat (List.length s)).
  assert (Ei : ins n s = s) by (apply ins_all; unfold n; lia).
  assert (Hn1 : (1 <= n)%Z) by (destruct Hs as (c & r & -> & _); unfold n; cbn [List.length]; lia).
  rewrite <- Ei. apply round_big; try assumption; try lia.
  - rewrite Ei. clear Hv Ev v Ei.
    assert (Hb : exists k, csd_value s == inject_Z k).
    { exists (sd_value s). unfold csd_value, frac_len. rewrite sdigits_alld, after_point_alld by assumption. cbn. field. }
    destruct Hb as (k & Hk). rewrite Hk.
    destruct (Z.eq_dec k 0) as [->|Hk0].
    + exfalso. assert (Hv : csd_value (ins n s) == dsum (2 ^ (n - 1)) s) by (apply ins_value; [assumption|unfold n; lia]).
      rewrite ins_all in Hv by (unfold n; lia). rewrite Hk in Hv. change (inject_Z 0) with 0 in Hv.
      destruct Hs as (c & r & E & Hz). subst s. cbn [canon dsum] in *. destruct Hcan as [Hh Hcan].
      inversion Ha as [|c' r' Hcc Har]; subst.
      assert (HP := pow_pos (n - 1)). assert (HP2 : 0 < 2 ^ (n - 1) / 2) by (apply Qlt_shift_div_l; lra).
      destruct (canon_bound r Hcan Har _ HP2) as [H1 _].
      assert (EP : (4#3) * (2 ^ (n - 1) / 2) == (2#3) * 2 ^ (n - 1)) by field. rewrite EP in H1. apply Qabs_lt in H1.
      apply sd_cases in Hcc as [->|[->| ->]].
      * change (inject_Z (dv "+")) with 1 in Hv. lra.
      * change (inject_Z (dv "-")) with (-(1)) in Hv. lra.
      * apply Hz. reflexivity.
    + destruct (Qlt_le_dec (Qabs (inject_Z k)) 1) as [H|H]; [|exact H]. apply inject_abs_lt1 in H. contradiction.
  - rewrite Ei. exact Hv.
Qed.
Print Assumptions C51_round_trip_integer.
Example C51_ex : exists v, to_decimal (chars_of "+00-0+0-") = Ok v /\ to_csd v 0 = Ok (chars_of "+00-0+0-") /\ v == 115.
Proof. eexists. split; [vm_compute; reflexivity|]. split; vm_compute; reflexivity. Qed.

(** Strings with a point, provided their value is at least 1 in absolute value. *)
Theorem C51_round_trip_point_partial : forall a b,
  Forall (fun c => sd_char c = true) a -> Forall (fun c => sd_char c = true) b -> b <> [] ->
  let s := a ++ "."%char :: b in
  canonical s -> starts_nonzero s -> 1 <= Qabs (csd_value s) ->
  exists v, to_decimal s = Ok v /\ to_csd v (Z.of_nat (List.length b)) = Ok s.
Proof.
  intros a b Ha Hb Hbn s Hc Hs H1.
  assert (Hwf : well_formed s).
  { unfold well_formed, s. apply Forall_app. split; [eapply Forall_impl; [|exact Ha]; cbn; auto|].
    constructor; [right; reflexivity|]. eapply Forall_impl; [|exact Hb]; cbn; auto. }
  assert (Hab : alld (a ++ b)) by (apply Forall_app; auto).
  assert (Esd : sdigits s = a ++ b).
  { unfold s. rewrite sdigits_app, sdigits_alld by assumption. f_equal.
    change (sdigits ("."%char :: b)) with (sdigits b). apply sdigits_alld, Hb. }
  destruct (to_decimal_ok s Hwf) as (v & Ev & Hv). exists v. split; [exact Ev|].
  assert (Hcan : canon (a ++ b)).
  { apply canonical_canon; [assumption|]. intros s1 x y s2 E. apply (Hc s1 x y s2). rewrite Esd. exact E. }
  assert (Ei : ins (Z.of_nat (List.length a)) (a ++ b) = s) by (apply ins_split, Hbn).
  destruct Hs as (c & r & Es & Hz).
  assert (Hane : a <> []). { intros ->. cbn in Es. injection Es as <- _. apply Hz. reflexivity. }
  destruct a as [|c0 a]; [contradiction|]. injection Es as -> Er.
  rewrite <- Ei. apply round_big; try assumption.
  - cbn [List.length]. lia.
  - lia.
  - rewrite app_length. cbn [List.length]. lia.
  - eexists _, _. split; [reflexivity|exact Hz].
  - rewrite Ei. exact H1.
  - rewrite Ei. exact Hv.
Qed.
Print Assumptions C51_round_trip_point_partial.
Example C51_ex_point : exists v, to_decimal (chars_of "+0-.0+0-") = Ok v /\ to_csd v 4 = Ok (chars_of "+0-.0+0-") /\ v == 3 + (3#16).
Proof. eexists. split; [vm_compute; reflexivity|]. split; vm_compute; reflexivity. Qed.

(** Strings of value below 1 are reproduced when they are written the way to_csd writes them. *)
Theorem C51_round_trip_fraction : forall b,
  Forall (fun c => sd_char c = true) b -> b <> [] ->
  let s := "0"%char :: "."%char :: b in
  canonical s -> ~ csd_value s == 0 ->
  exists v, to_decimal s = Ok v /\ to_csd v (Z.of_nat (List.length b)) = Ok s.
Proof.
  intros b Hb Hbn s Hc H0.
  assert (Hwf : well_formed s).
  { unfold well_formed, s. constructor; [left; reflexivity|]. constructor; [right; reflexivity|].
    eapply Forall_impl; [|exact Hb]; cbn; auto. }
  assert (Esd : sdigits s = "0"%char :: b).
  { unfold s. change (sdigits ("0"%char :: "."%char :: b)) with ("0"%char :: sdigits b). f_equal. apply sdigits_alld, Hb. }
  destruct (to_decimal_ok s Hwf) as (v & Ev & Hv). exists v. split; [exact Ev|].
  assert (Hcan : canon b).
  { apply canonical_canon; [assumption|]. intros s1 x y s2 E. apply (Hc ("0"%char :: s1) x y s2). rewrite Esd, E. reflexivity. }
  assert (Ei : ins 0 b = cPoint :: b) by (apply (ins_split []), Hbn).
  assert (Es : s = cZero :: ins 0 b) by (rewrite Ei; reflexivity).
  rewrite Es. apply round_small; try assumption.
  - lia.
  - rewrite Nat2Z.id. reflexivity.
  - rewrite Hv, Es. apply value_zero_prefix.
  - rewrite Hv. exact H0.
Qed.
Print Assumptions C51_round_trip_fraction.
Example C51_ex_fraction : exists v, to_decimal (chars_of "0.0+0-") = Ok v /\ to_csd v 4 = Ok (chars_of "0.0+0-") /\ v == (3#16).
Proof. eexists. split; [vm_compute; reflexivity|]. split; vm_compute; reflexivity. Qed.

(** "+.0-0-" denotes 0.6875, which to_csd writes "0.++0-". *)
Theorem C51_round_trip_point_refuted :
  ~ (forall a b, Forall (fun c => sd_char c = true) a -> Forall (fun c => sd_char c = true) b -> b <> [] ->
       let s := a ++ "."%char :: b in canonical s -> starts_nonzero s ->
       exists v, to_decimal s = Ok v /\ to_csd v (Z.of_nat (List.length b)) = Ok s).
Proof.
  intros H.
  destruct (H ["+"%char] ["0"; "-"; "0"; "-"]%char) as (v & E & Er).
  - repeat constructor.
  - repeat constructor.
  - discriminate.
  - intros s1 a b s2 E. cbn in E.
    destruct s1 as [|? [|? [|? [|? [|? s1]]]]]; cbn in E; inversion E; subst; auto; destruct s1; discriminate.
  - eexists _, _. split; [reflexivity|discriminate].
  - vm_compute in E. injection E as <-. vm_compute in Er. discriminate.
Qed.
Print Assumptions C51_round_trip_point_refuted.

(** ** C52: the budget; C70: relative error; C71: no budget *)
Theorem C52_csdfixed_budget : forall x nnz, (1 <= nnz)%Z ->
  exists s, to_csdfixed x nnz = Ok s /\ (Z.of_nat (nonzeros s) <= nnz)%Z.
Proof.
  intros x nnz Hn. destruct (to_csdfixed_all x nnz Hn) as (s & v & E & _ & _ & H & _). exists s. auto.
Qed.
Print Assumptions C52_csdfixed_budget.
(** the parenthesis of C52 *)
Theorem C52_csdfixed_zero_budget : exists s, to_csdfixed 5 0 = Ok s /\ nonzeros s = 2%nat.
Proof. eexists. split; vm_compute; reflexivity. Qed.
Print Assumptions C52_csdfixed_zero_budget.
Example C52_ex : exists s, to_csdfixed (57#2) 2 = Ok s /\ nonzeros s = 2%nat.
Proof. eexists. split; vm_compute; reflexivity. Qed.

Lemma tiny_eq : tiny == / inject_Z (10 ^ 100).
Proof. vm_compute. reflexivity. Qed.
(** Each non-zero digit at least halves the error. *)
Theorem C70_csdfixed_error : forall x nnz, (1 <= nnz)%Z ->
  exists s v, to_csdfixed x nnz = Ok s /\ to_decimal s = Ok v /\
    (Qabs (v - x) <= / inject_Z (10 ^ 100) \/ Qabs (v - x) <= Qabs x / inject_Z (2 ^ nnz)).
Proof.
  intros x nnz Hn. destruct (to_csdfixed_all x nnz Hn) as (s & v & E & _ & _ & _ & Ev & H & _).
  exists s, v. split; [exact E|]. split; [exact Ev|]. destruct H as [H|H]; [left; rewrite <- tiny_eq; exact H|right].
  assert (Hpp := pow2_pos (Z.to_nat nnz)). rewrite Z2Nat.id in Hpp by lia. apply Qle_shift_div_l; assumption.
Qed.
Print Assumptions C70_csdfixed_error.
Theorem C70_csdfixed_any_start : forall n x nnz, (1 <= nnz)%Z -> (0 <= n)%Z -> Qabs x < 2 ^ n ->
  exists s v, to_csdfixed_from n x nnz = Ok s /\ well_formed s /\ (points s <= 1)%nat /\
    (Z.of_nat (nonzeros s) <= nnz)%Z /\ to_decimal s = Ok v /\
    (Qabs (v - x) <= / inject_Z (10 ^ 100) \/ Qabs (v - x) <= Qabs x / inject_Z (2 ^ nnz)).
Proof.
  intros n x nnz Hn H0 Hx. destruct (to_csdfixed_from_all n x nnz Hn H0 Hx) as (s & v & E & Hw & Hp & Hc & Ev & H & _).
  exists s, v. repeat (split; [assumption|]). destruct H as [H|H]; [left; rewrite <- tiny_eq; exact H|right].
  assert (Hpp := pow2_pos (Z.to_nat nnz)). rewrite Z2Nat.id in Hpp by lia. apply Qle_shift_div_l; assumption.
Qed.
Print Assumptions C70_csdfixed_any_start.
Example C70_ex : exists s v, to_csdfixed (57#4) 2 = Ok s /\ to_decimal s = Ok v /\ v == 14 /\ Qabs (v - (57#4)) == (1#4).
Proof. eexists _, _. split; [vm_compute; reflexivity|]. split; [vm_compute; reflexivity|]. split; vm_compute; reflexivity. Qed.

Theorem C71_csdfixed_no_budget : forall x nnz, (nnz <= 0)%Z -> to_csdfixed x nnz = to_csd x 0.
Proof.
  intros x nnz Hn. unfold to_csdfixed, to_csd. destruct (Qeq_bool x 0) eqn:B0; [reflexivity|].
  apply Qeq_bool_neq in B0. unfold to_csdfixed_from, to_csd_from.
  assert (E : csdfixed_loop (Z.to_nat (csd_n x) + 340) (csd_n x) nnz (2 ^ (csd_n x - 1)) x =
              csd_loop (S (Z.to_nat (csd_n x + 0))) 0 (csd_n x) (2 ^ (csd_n x - 1)) x); [|rewrite E; reflexivity].
  destruct (Z.eq_dec nnz 0) as [->|]; [|apply csdfixed_nobudget; [lia|lia|rewrite Z.add_0_r; lia]].
  destruct (csd_n_spec x B0) as [Hn0 Hn1]. destruct (Qlt_le_dec (Qabs x) 1) as [H|H].
  - rewrite Hn0 by assumption. reflexivity.
  - destruct (Hn1 H) as (H1 & H2 & _). set (n := csd_n x) in *. rewrite Nat.add_succ_r. cbn [csdfixed_loop csd_loop].
    change (- 0)%Z with 0%Z. destruct (Z.ltb_spec 0 n); [|lia]. cbn [orb].
    pose proof (csd_digit_spec (2 ^ (n - 1)) x (pow_pos (n - 1))) as Hc. destruct (csd_digit (2 ^ (n - 1)) x) as [c d1].
    destruct Hc as (_ & _ & Hz & _ & _ & Hiff).
    destruct (Ascii.eqb_spec c cZero) as [->|Hc]; [destruct (Hz (proj2 Hiff eq_refl)) as [_ ?]; lra|].
    change (0 - 1 =? 0)%Z with false. cbn iota.
    rewrite (csdfixed_nobudget _ (Z.to_nat (n + 0)) (n - 1) (0 - 1)); [reflexivity|lia|lia|lia].
Qed.
Print Assumptions C71_csdfixed_no_budget.
Example C71_ex : to_csdfixed (57#2) 0 = Ok (chars_of "+00-00") /\ to_csdfixed (1#5) (-3) = Ok (chars_of "0").
Proof. split; vm_compute; reflexivity. Qed.

(** ** C53: to_decimal *)
Theorem C53_to_decimal_value : forall s,
  Forall (fun c => c = "+" \/ c = "-" \/ c = "0" \/ c = ".")%char s ->
  exists v, to_decimal s = Ok v /\ v == csd_value s.
Proof.
  intros s H. apply to_decimal_ok. eapply Forall_impl; [|exact H]. cbn.
  intros c [->|[->|[->| ->]]]; auto.
Qed.
Print Assumptions C53_to_decimal_value.
Theorem C53_to_decimal_rejects : forall s, to_decimal s = Raise ValueError <->
  Exists (fun c => c <> "+" /\ c <> "-" /\ c <> "0" /\ c <> ".")%char s.
Proof.
  intros s.
  assert (Hw : well_formed s <-> Forall (fun c => c = "+" \/ c = "-" \/ c = "0" \/ c = ".")%char s).
  { unfold well_formed. split; apply Forall_impl; intros c.
    - intros [H|H]; [apply sd_cases in H; tauto|]. apply Ascii.eqb_eq in H. tauto.
    - intros [->|[->|[->| ->]]]; auto. }
  split.
  - intros H. apply Exists_exists. destruct (Forall_Exists_dec (fun c => c = "+" \/ c = "-" \/ c = "0" \/ c = ".")%char) with (l := s) as [F|F].
    + intros c. destruct (Ascii.ascii_dec c "+") as [->|]; [left; auto|].
      destruct (Ascii.ascii_dec c "-") as [->|]; [left; auto|].
      destruct (Ascii.ascii_dec c "0") as [->|]; [left; auto|].
      destruct (Ascii.ascii_dec c ".") as [->|]; [left; auto|]. right; tauto.
    + apply Hw in F. destruct (to_decimal_ok s F) as (v & E & _). rewrite E in H. discriminate.
    + apply Exists_exists in F as (c & Hin & Hc). exists c. split; [exact Hin|]. tauto.
  - intros H. apply to_decimal_bad. intros F. apply Hw in F. rewrite Forall_forall in F.
    apply Exists_exists in H as (c & Hin & Hc). specialize (F c Hin). tauto.
Qed.
Print Assumptions C53_to_decimal_rejects.
Example C53_ex : to_decimal (chars_of "+0.-1") = Raise ValueError /\
  exists v, to_decimal (chars_of "+.0-.+") = Ok v /\ v == (7#2).
Proof. split; [vm_compute; reflexivity|]. eexists. split; vm_compute; reflexivity. Qed.
