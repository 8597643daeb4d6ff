(** Proofs for cholutil. *)
From Coq Require Import Reals Lra Psatz.
From Verif Require Import Base M_Chol M_Ell M_Lmi M_Cholutil S_LinAlg P_LinAlg P_Chol P_Chol2.
Local Open Scope R_scope.

Lemma cu_reduce_R j Rm i c (d : R) : cu_reduce j Rm i c d = d - rsum j (fun k => Rm k i * Rm k c).
Proof. induction j as [|j IH]; cbn [cu_reduce rsum]; [lra|]. rewrite IH. cbn [nsub nmul RNum]. ring. Qed.

Lemma cu_sum_R cnt : forall lo f (s : R), cu_sum cnt lo f s = s + rsum cnt (fun k => f (lo + k)%nat).
Proof.
  induction cnt as [|c IH]; intros lo f s; cbn [cu_sum]; [cbn; lra|].
  rewrite IH. rewrite (rsum_split_at (S c) 1) by lia. cbn [rsum nadd RNum]. rewrite Nat.add_0_r.
  replace (S c - 1)%nat with c by lia.
  rewrite (rsum_ext c (fun k => f (lo + 1 + k)%nat) (fun k => f (lo + (1 + k))%nat)).
  - ring.
  - intros k _. f_equal. lia.
Qed.

(** R'R agrees with the lower triangle of M in rows below e *)
Definition upfac (M : nat -> nat -> R) (e : nat) (U : nat -> nat -> R) : Prop :=
  forall a b, (b <= a)%nat -> (a < e)%nat -> rsum (S b) (fun k => U k a * U k b) = M a b.

Section Rows.
Context {G : Type}.
Variables (n : nat) (M : nat -> nat -> R) (GI : nat -> G -> Prop)
          (getA : G -> nat -> nat -> res (G * R)).
Hypothesis Hget : getter n M GI getA.

Lemma cu_row_spec i : (i < n)%nat -> forall cnt j g U,
  (j + cnt = i)%nat -> GI i g \/ GI (S i) g ->
  (forall a, (a < i)%nat -> 0 < U a a) ->
  (forall b, (b < j)%nat -> rsum (S b) (fun k => U k i * U k b) = M i b) ->
  exists g' U', cu_row getA cnt i j g U = Ok (g', U') /\ (GI i g' \/ GI (S i) g') /\
    (forall a b, ~ (b = i /\ a < i)%nat -> U' a b = U a b) /\
    (forall b, (b < i)%nat -> rsum (S b) (fun k => U' k i * U' k b) = M i b).
Proof.
  intros Hi. induction cnt as [|cnt IH]; intros j g U Hc Hg Hp Hrow; cbn [cu_row].
  - exists g, U. split; [reflexivity|]. split; [assumption|]. split; [reflexivity|].
    intros b Hb. apply Hrow. lia.
  - destruct (Hget g i j ltac:(lia) Hi Hg) as (g1 & -> & Hg1). cbn [bind].
    assert (Hj := Hp j ltac:(lia)).
    rewrite rdiv_ok by lra. cbn [bind]. rewrite cu_reduce_R. cbn [nmul RNum].
    set (d := M i j - _). set (U1 := mset U j i (1 / U j j * d)).
    destruct (IH (j + 1)%nat g1 U1) as (g' & U' & E & H1 & H2 & H3); [lia|right; assumption| | |].
    + intros a Ha. unfold U1. rewrite mset_ne by lia. apply Hp. assumption.
    + intros b Hb. destruct (Nat.eq_dec b j) as [->|Hne].
      * cbn [rsum]. unfold U1 at 3 4. rewrite mset_eq. rewrite mset_ne by lia.
        rewrite (rsum_ext j _ (fun k => U k i * U k j)).
        2: { intros k Hk. unfold U1. rewrite !mset_ne by lia. reflexivity. }
        unfold d. field. lra.
      * rewrite <- (Hrow b) by lia. apply rsum_ext. intros k Hk. unfold U1. rewrite !mset_ne by lia. reflexivity.
    + exists g', U'. split; [assumption|]. split; [assumption|]. split; [|assumption].
      intros a b Hab. rewrite H2 by assumption. unfold U1. apply mset_ne. lia.
Qed.

Lemma cu_rows_spec : forall cnt i g U,
  (i + cnt = n)%nat -> GI i g -> upfac M i U -> (forall a, (a < i)%nat -> 0 < U a a) ->
  exists g' U' p, cu_rows getA cnt i g U = Ok (g', U', p) /\
   ((p = 0%nat /\ GI n g' /\ upfac M n U' /\ forall a, (a < n)%nat -> 0 < U' a a) \/
    exists m, p = (m + 1)%nat /\ (i <= m < n)%nat /\ GI (S m) g' /\
      upfac M m U' /\ (forall a, (a < m)%nat -> 0 < U' a a) /\
      (forall b, (b < m)%nat -> rsum (S b) (fun k => U' k m * U' k b) = M m b) /\
      0 <= U' m m /\ M m m - rsum m (fun k => U' k m * U' k m) = - (U' m m * U' m m)).
Proof.
  induction cnt as [|cnt IH]; intros i g U Hn Hg HU Hp; cbn [cu_rows].
  - replace i with n in * by lia. exists g, U, 0%nat. split; [reflexivity|]. left. auto.
  - destruct (cu_row_spec i ltac:(lia) i 0%nat g U) as (g1 & U1 & -> & Hg1 & Ho & Hr);
      [lia|left; assumption|assumption|intros; lia|]. cbn [bind].
    destruct (Hget g1 i i ltac:(lia) ltac:(lia) Hg1) as (g2 & -> & Hg2). cbn [bind].
    rewrite cu_reduce_R. set (d := M i i - _). cbn [nleb RNum nzero].
    assert (HU1 : forall r, upfac M i (mset U1 i i r)).
    { intros r a b Hb Ha. rewrite <- (HU a b Hb Ha). apply rsum_ext. intros k Hk.
      rewrite !mset_ne by lia. rewrite !Ho by lia. reflexivity. }
    assert (Hp1 : forall r a, (a < i)%nat -> 0 < mset U1 i i r a a).
    { intros r a Ha. rewrite mset_ne by lia. rewrite Ho by lia. apply Hp. assumption. }
    assert (Hr1 : forall r b, (b < i)%nat -> rsum (S b) (fun k => mset U1 i i r k i * mset U1 i i r k b) = M i b).
    { intros r b Hb. rewrite <- (Hr b Hb). apply rsum_ext. intros k Hk. rewrite !mset_ne by lia. reflexivity. }
    assert (Hs1 : forall r, rsum i (fun k => mset U1 i i r k i * mset U1 i i r k i) = M i i - d).
    { intros r. unfold d. ring_simplify. apply rsum_ext. intros k Hk. rewrite !mset_ne by lia. reflexivity. }
    destruct (Rleb d 0) eqn:Ed.
    + apply Rleb_true in Ed. cbn [nopp RNum].
      rewrite rsqrt_ok by lra. cbn [bind].
      eexists g2, _, _. split; [reflexivity|]. right. exists i. split; [reflexivity|]. split; [lia|].
      split; [assumption|]. split; [apply HU1|]. split; [apply Hp1|]. split; [apply Hr1|].
      rewrite Hs1, mset_eq. split; [apply sqrt_pos|]. rewrite sqrt_sqrt by lra. ring.
    + apply Rleb_false in Ed. rewrite rsqrt_ok by lra. cbn [bind].
      destruct (IH (i + 1)%nat g2 (mset U1 i i (sqrt d))) as (g' & U' & p & E & HH); [lia| | | |].
      * replace (i + 1)%nat with (S i) by lia. assumption.
      * intros a b Hb Ha. destruct (Nat.eq_dec a i) as [->|Hne].
        -- destruct (Nat.eq_dec b i) as [->|Hnb]; [|apply Hr1; lia].
           cbn [rsum]. rewrite Hs1, mset_eq, sqrt_sqrt by lra. ring.
        -- apply HU1; lia.
      * intros a Ha. destruct (Nat.eq_dec a i) as [->|Hne]; [rewrite mset_eq; apply sqrt_lt_R0; lra|apply Hp1; lia].
      * exists g', U', p. split; [assumption|]. destruct HH as [HH|(m & HH)]; [left; assumption|right].
        exists m. destruct HH as (? & ? & HH). split; [assumption|]. split; [lia|]. exact HH.
Qed.
End Rows.

(** The LDL' form of the same factorisation, to reuse what is known of it *)
Definition tof (m : nat) (d : R) (U : nat -> nat -> R) : nat -> nat -> R := fun a b =>
  if (b <? a)%nat then U b a / U b b
  else if (a =? b)%nat then (if (a =? m)%nat then d else U a a * U a a)
  else U a a * U a b.
Lemma tof_lt m d U a b : (b < a)%nat -> tof m d U a b = U b a / U b b.
Proof. intros H. unfold tof. destruct (Nat.ltb_spec b a); [reflexivity|lia]. Qed.
Lemma tof_gt m d U a b : (a < b)%nat -> tof m d U a b = U a a * U a b.
Proof. intros H. unfold tof. destruct (Nat.ltb_spec b a); [lia|]. destruct (Nat.eqb_spec a b); [lia|reflexivity]. Qed.
Lemma tof_diag m d U a : a <> m -> tof m d U a a = U a a * U a a.
Proof.
  intros H. unfold tof. rewrite Nat.ltb_irrefl, Nat.eqb_refl. destruct (Nat.eqb_spec a m); [contradiction|reflexivity].
Qed.
Lemma tof_m m d U : tof m d U m m = d.
Proof. unfold tof. rewrite Nat.ltb_irrefl, !Nat.eqb_refl. reflexivity. Qed.

Lemma tof_ldl M m d U e : (forall a, (a < m)%nat -> 0 < U a a) -> (e <= S m)%nat ->
  (forall a b, (b < m)%nat -> (b <= a < e)%nat -> rsum (S b) (fun k => U k a * U k b) = M a b) ->
  ((m < e)%nat -> M m m - rsum m (fun k => U k m * U k m) = d) ->
  ldl M 0 e (tof m d U).
Proof.
  intros Hp He Hr Hd. split.
  - intros a b [_ Hb] Ha. unfold part. rewrite Nat.sub_0_r.
    rewrite (rsum_ext b _ (fun k => U k a * U k b)).
    2: { intros k Hk. cbn [Nat.add]. rewrite tof_lt, tof_gt by lia. field.
         apply Rgt_not_eq, Hp. lia. }
    destruct (Nat.eq_dec b m) as [->|Hbm].
    + replace a with m by lia. rewrite tof_m. rewrite <- Hd by lia. reflexivity.
    + rewrite <- (Hr a b) by lia. cbn [rsum].
      destruct (Nat.eq_dec a b) as [->|Hne]; [rewrite tof_diag by assumption|rewrite tof_gt by lia]; ring.
  - intros a b [_ Hb] Ha. rewrite tof_lt, tof_diag, tof_gt by lia. field.
    apply Rgt_not_eq, Hp. lia.
Qed.

Lemma upfac_pd M e U : upfac M e U -> (forall a, (a < e)%nat -> 0 < U a a) -> sym e M -> pd e M.
Proof.
  intros HU Hp Hs. apply (ldl_pd M e (tof e 0 U)); [|assumption|].
  - apply tof_ldl; [assumption|lia| |intros; lia]. intros a b Hb Ha. apply HU; lia.
  - intros a Ha. rewrite tof_diag by lia. assert (H := Hp a Ha). nra.
Qed.

(** back substitution *)
Lemma cu_back_spec p (U : nat -> nat -> R) : forall cnt v, (cnt < p)%nat ->
  (forall i, (i < cnt)%nat -> U i i <> 0) ->
  exists v', cu_back cnt p U v = Ok v' /\
    (forall k, (cnt <= k)%nat -> v' k = v k) /\
    (forall i, (i < cnt)%nat -> U i i * v' i = - rsum (p - S i) (fun k => U i (S i + k)%nat * v' (S i + k)%nat)).
Proof.
  induction cnt as [|i IH]; intros v Hc HU; cbn [cu_back].
  - exists v. split; [reflexivity|]. split; [reflexivity|]. intros; lia.
  - rewrite cu_sum_R. cbn [nmul nopp RNum nzero].
    rewrite rdiv_ok by (apply HU; lia). cbn [bind].
    set (q := (- (0 + _)) / _).
    destruct (IH (vset v i q)) as (v' & E & H1 & H2); [lia|intros; apply HU; lia|].
    exists v'. split; [exact E|]. split.
    + intros k Hk. rewrite H1 by lia. apply vset_ne. lia.
    + intros j Hj. destruct (Nat.eq_dec j i) as [->|Hne]; [|apply H2; lia].
      rewrite H1, vset_eq by lia. unfold q. rewrite Rplus_0_l.
      transitivity (- rsum (p - (i + 1)) (fun k => U i (i + 1 + k)%nat * v (i + 1 + k)%nat)).
      * field. apply HU. lia.
      * f_equal. replace (p - S i)%nat with (p - (i + 1))%nat by lia. apply rsum_ext. intros k Hk.
        replace (S i + k)%nat with (i + 1 + k)%nat by lia. rewrite H1 by lia. rewrite vset_ne by lia. reflexivity.
Qed.

Lemma tof_Ltu m d (U : nat -> nat -> R) v : (forall a, (a < m)%nat -> 0 < U a a) ->
  (forall i, (i < m)%nat -> U i i * v i = - rsum (S m - S i) (fun k => U i (S i + k)%nat * v (S i + k)%nat)) ->
  forall l, (l < S m)%nat -> Ltu (S m) 0 (tof m d U) v l = if (l =? m)%nat then v m else 0.
Proof.
  intros Hp Hv l Hl. unfold Ltu.
  rewrite (rsum_split_at (S m) (S l)) by lia.
  rewrite (rsum_single (S l) l).
  2: lia.
  2: { intros k Hk Hne. rewrite Lh_gt by lia. ring. }
  rewrite Lh_eq.
  rewrite (rsum_ext (S m - S l) _ (fun k => U l (S l + k)%nat * v (S l + k)%nat * / U l l)).
  2: { intros k Hk. rewrite Lh_lt by lia. cbn [Nat.add]. rewrite tof_lt by lia. unfold Rdiv. ring. }
  rewrite rsum_scal_r. destruct (Nat.eqb_spec l m) as [->|Hne].
  - replace (S m - S m)%nat with 0%nat by lia. cbn [rsum]. ring.
  - assert (H := Hv l ltac:(lia)). assert (Hpl := Hp l ltac:(lia)).
    replace (rsum (S m - S l) (fun k => U l (S l + k)%nat * v (S l + k)%nat)) with (- (U l l * v l)) by lra.
    field. lra.
Qed.

Section FactorSpec.
Context {G : Type}.
Variables (M : nat -> nat -> R) (GI : nat -> G -> Prop) (getA : G -> nat -> nat -> res (G * R)).
Variable Q : cutil R.
Hypothesis Hget : getter (u_n Q) M GI getA.
Hypothesis Hsym : sym (u_n Q) M.

Lemma cu_factor_spec g : GI 0%nat g ->
  exists g' Q', cu_factor getA g Q = Ok (g', Q') /\ u_n Q' = u_n Q /\
   ((u_p Q' = 0%nat /\ GI (u_n Q) g' /\ pd (u_n Q) M /\
     upfac M (u_n Q) (u_R Q') /\ forall a, (a < u_n Q)%nat -> 0 < u_R Q' a a) \/
    exists m, u_p Q' = S m /\ (m < u_n Q)%nat /\ GI (S m) g' /\ pd m M /\ ~ pd (S m) M /\
      (forall a, (a < m)%nat -> 0 < u_R Q' a a) /\ 0 <= u_R Q' m m /\
      exists v f, cu_witness Q' = Ok (v, f) /\ (f = 0 \/ f = 1) /\ (f = 0 <-> u_R Q' m m = 0) /\
        0 < v m /\ bf (S m) M v v = - f /\ (u_R Q' m m = 0 -> psd (S m) M) /\
        (forall k, (m < k)%nat -> v k = 0)).
Proof.
  intros Hg.
  destruct (cu_rows_spec (u_n Q) M GI getA Hget (u_n Q) 0%nat g (u_R Q)) as (g' & U & p & E & H);
    [lia|assumption|intros a b _ ?; lia|intros; lia|].
  unfold cu_factor. rewrite E. cbn [bind]. eexists g', _. split; [reflexivity|]. split; [reflexivity|].
  cbn [u_p u_n u_R].
  destruct H as [(-> & H1 & H2 & H3)|(m & -> & Hm & H1 & H2 & H3 & H4 & H5 & H6)].
  - left. split; [reflexivity|]. split; [assumption|]. split; [|auto]. apply (upfac_pd M _ U); assumption.
  - right. exists m. split; [lia|]. split; [lia|]. split; [assumption|].
    assert (Hsm : sym m M) by (apply (sym_le (u_n Q)); [lia|assumption]).
    assert (HsS : sym (m + 1) M) by (apply (sym_le (u_n Q)); [lia|assumption]).
    split; [apply (upfac_pd M m U); assumption|].
    set (r := U m m) in *. set (T := tof m (- (r * r)) U).
    assert (HL : ldl M 0 (m + 1) T).
    { apply tof_ldl; [assumption|lia| |intros _; exact H6].
      intros a b Hb Ha. destruct (Nat.eq_dec a m) as [->|Hne]; [apply H4; assumption|apply H2; lia]. }
    unfold cu_witness, cu_is_spd. cbn [u_p u_R].
    destruct (Nat.eqb_spec (m + 1) 0); [lia|]. replace (m + 1 - 1)%nat with m by lia. fold r.
    assert (exists v1, (if neqb r 0 then Ok none else ndiv none r) = Ok v1 /\ 0 < v1 /\
       - (r * r) * (v1 * v1) = - (if neqb r 0 then 0 else 1)) as (v1 & E1 & Hv1 & Hq).
    { cbn [neqb RNum none]. destruct (Req_bool r 0) eqn:Er.
      - apply Reqb_true in Er. exists 1. rewrite Er. split; [reflexivity|]. split; [lra|ring].
      - apply Reqb_false in Er. rewrite rdiv_ok by assumption. eexists. split; [reflexivity|].
        split; [apply Rdiv_lt_0_compat; lra|field; assumption]. }
    cbn [nzero RNum]. change (@nzero R RNum) with 0. rewrite E1. cbn [bind].
    destruct (cu_back_spec (m + 1) U m (vset (fun _ => 0) m v1)) as (v & Ev & Hv2 & Hv3);
      [lia|intros i Hi; apply Rgt_not_eq, H3; assumption|].
    rewrite Ev. cbn [bind].
    assert (Hvm : v m = v1) by (rewrite Hv2 by lia; apply vset_eq).
    assert (HLt : forall l, (l < S m)%nat -> Ltu (S m) 0 T v l = if (l =? m)%nat then v m else 0).
    { apply tof_Ltu; [assumption|]. intros i Hi. rewrite (Hv3 i Hi). do 2 f_equal. lia. }
    assert (Hb : bf (S m) M v v = - (if neqb r 0 then 0 else 1)).
    { change (bf (S m) M v v) with (bf (S m) (blk M 0) v v).
      rewrite (ldl_form M 0 (m + 1) T) by (auto; lia).
      rewrite (rsum_single _ m); [|lia|].
      - rewrite HLt by lia. rewrite Nat.eqb_refl, Hvm. unfold Dg. cbn [Nat.add]. unfold T. rewrite tof_m. exact Hq.
      - intros k Hk Hne. rewrite HLt by lia. destruct (Nat.eqb_spec k m); [contradiction|ring]. }
    assert (Hf01 : 0 <= (if neqb r 0 then 0 else 1)) by (destruct (neqb r 0); lra).
    split. { intros Hpd. specialize (Hpd v). assert (0 < bf (S m) M v v); [|lra].
             apply Hpd. exists m. split; [lia|lra]. }
    split; [assumption|]. split; [assumption|].
    exists v, (if neqb r 0 then 0 else 1). split; [reflexivity|].
    cbn [neqb RNum] in *. split; [destruct (Req_bool r 0); [left|right]; reflexivity|].
    split.
    { destruct (Req_bool r 0) eqn:Er; [apply Reqb_true in Er|apply Reqb_false in Er]; split; intros; lra. }
    split; [lra|]. split; [exact Hb|]. split.
    + intros Hr0 u. change (bf (S m) M u u) with (bf (S m) (blk M 0) u u).
      rewrite (ldl_form M 0 (m + 1) T) by (auto; lia). apply rsum_nonneg. intros l Hl.
      apply Rmult_le_pos; [|apply Rle_0_sqr]. unfold Dg. cbn [Nat.add]. unfold T.
      destruct (Nat.eq_dec l m) as [->|Hne]; [rewrite tof_m, Hr0; lra|rewrite tof_diag by assumption; apply Rle_0_sqr].
    + intros k Hk. rewrite Hv2 by lia. rewrite vset_ne by lia. reflexivity.
Qed.
End FactorSpec.

(** The order at which chol_ext (default mode) stops: the leading block before it is definite. *)
Lemma chol_factorize_lead M (Q Q1 : chol R) b : sym (c_n Q) M -> c_semi Q = false ->
  chol_factorize M Q = Ok (Q1, b) ->
  if b then pd (c_n Q) M else exists m, c_p Q1 = (0%nat, S m) /\ (m < c_n Q)%nat /\ pd m M /\ ~ pd (S m) M.
Proof.
  intros Hs Hse H. unfold chol_factorize in H. apply bind_ok in H as ([[[] Q1'] b'] & Hf & H).
  injection H as -> ->. unfold chol_factor in Hf.
  destruct (chol_rows_spec (c_n Q) M (fun _ _ => True) (pure_getA M) (pure_getter _ _) (c_semi Q)
              (c_n Q) 0%nat 0%nat tt (c_T Q)) as (g' & T & p & E & HH);
    [lia|lia|trivial|split; intros; lia|intros; lia|].
  rewrite E in Hf. cbn [bind] in Hf. injection Hf as _ <- <-. unfold chol_is_spd. cbn [c_p].
  destruct HH as [(-> & _ & HL)|(s & m & -> & Hsm & Hm & _ & H0 & HL & Hp & Hd & _)].
  - cbn [snd Nat.eqb]. destruct (HL Hse) as [HL1 HL2]. apply (ldl_pd M _ T); auto. intros a Ha. apply HL2. lia.
  - cbn [snd]. destruct (Nat.eqb_spec (m + 1) 0); [lia|]. rewrite (H0 Hse) in *.
    exists m. split; [f_equal; lia|]. split; [assumption|].
    assert (HsS : sym (m + 1) M) by (apply (sym_le (c_n Q)); [lia|assumption]).
    split.
    + apply (ldl_pd M m T); [|apply (sym_le (m + 1)); [lia|assumption]|intros a Ha; apply Hp; lia].
      destruct HL as [L1 L2]. split; intros; [apply L1|apply L2]; lia.
    + intros Hpd.
      pose proof (chol_witness_spec (mk_chol (c_n Q) (0%nat, (m + 1)%nat) (c_v Q) T (c_semi Q)) 0 m eq_refl ltac:(lia))
        as (Q' & _ & _ & _ & _ & _ & Hv1 & _ & Hlt). cbn [c_T] in Hlt.
      pose proof (ldl_witness M 0 m T (fun k => c_v Q' (0 + k)%nat) HL HsS ltac:(lia) Hlt) as Hw.
      replace (m + 1 - 0)%nat with (S m) in Hw by lia.
      assert (0 < bf (S m) M (fun k => c_v Q' (0 + k)%nat) (fun k => c_v Q' (0 + k)%nat)).
      { apply Hpd. exists m. split; [lia|]. cbn [Nat.add]. rewrite Hv1. lra. }
      change (blk M 0) with M in Hw. lra.
Qed.

Lemma pd_le n m M : (m <= n)%nat -> pd n M -> pd m M.
Proof.
  intros Hle Hpd v (k & Hk & Hv). 
  assert (E := bf_zext n 0 m M v ltac:(lia)). change (blk M 0) with M in E. rewrite <- E.
  apply Hpd. exists k. split; [lia|]. pose proof (zext_in 0 m v k Hk) as Z. cbn [Nat.add] in Z. rewrite Z. assumption.
Qed.

(** *** What is left in the workspace by earlier calls does not matter (any arithmetic) *)
Section LawFree.
Context {A : Type} `{Num A}.
(** agreement on the upper triangle of the first e rows *)
Definition uagree (e : nat) (U U' : nat -> nat -> A) : Prop :=
  forall a b, (a <= b)%nat -> (b < e)%nat -> U a b = U' a b.

Lemma cu_reduce_agree j (U U' : nat -> nat -> A) i c d :
  (forall k, (k < j)%nat -> U k i = U' k i /\ U k c = U' k c) -> cu_reduce j U i c d = cu_reduce j U' i c d.
Proof.
  induction j as [|j IH]; intros Hk; cbn [cu_reduce]; [reflexivity|].
  rewrite IH by (intros; apply Hk; lia). destruct (Hk j) as [-> ->]; [lia|reflexivity].
Qed.

Section G.
Context {G : Type}.
Variable getA : G -> nat -> nat -> res (G * A).

Lemma cu_row_agree i : forall cnt j g U U', (j + cnt = i)%nat -> uagree i U U' ->
  (forall a, (a < j)%nat -> U a i = U' a i) ->
  match cu_row getA cnt i j g U with
  | Ok (g1, U1) => exists U1', cu_row getA cnt i j g U' = Ok (g1, U1') /\ uagree i U1 U1' /\
      (forall a, (a < i)%nat -> U1 a i = U1' a i)
  | Raise e => cu_row getA cnt i j g U' = Raise e
  end.
Proof.
  induction cnt as [|cnt IH]; intros j g U U' Hc Ha Hi; cbn [cu_row].
  - exists U'. split; [reflexivity|]. split; [assumption|]. intros a Hlt. apply Hi. lia.
  - destruct (getA g i j) as [[g1 a]|e]; cbn [bind]; [|reflexivity].
    rewrite (Ha j j) by lia. destruct (ndiv none (U' j j)) as [q|e]; cbn [bind]; [|reflexivity].
    rewrite (cu_reduce_agree j U U' i j a) by (intros k Hk; split; [apply Hi; lia|apply Ha; lia]).
    apply IH; [lia| |].
    + intros b c Hb Hcc. unfold mset. destruct (Nat.eqb_spec b j), (Nat.eqb_spec c i); cbn [andb]; try lia;
        apply Ha; lia.
    + intros b Hb. unfold mset. rewrite Nat.eqb_refl, andb_true_r.
      destruct (Nat.eqb_spec b j); [reflexivity|apply Hi; lia].
Qed.

Lemma cu_rows_agree : forall cnt i g U U', uagree i U U' ->
  match cu_rows getA cnt i g U with
  | Ok (g1, U1, p) => exists U1', cu_rows getA cnt i g U' = Ok (g1, U1', p) /\
      uagree (if Nat.eqb p 0 then i + cnt else p)%nat U1 U1'
  | Raise e => cu_rows getA cnt i g U' = Raise e
  end.
Proof.
  induction cnt as [|cnt IH]; intros i g U U' Ha; cbn [cu_rows].
  - exists U'. split; [reflexivity|]. rewrite Nat.eqb_refl, Nat.add_0_r. assumption.
  - pose proof (cu_row_agree i i 0 g U U' eq_refl Ha ltac:(intros; lia)) as Hr.
    destruct (cu_row getA i i 0 g U) as [[g1 U1]|e]; cbn [bind]; [|rewrite Hr; reflexivity].
    destruct Hr as (U1' & -> & Ha1 & Hi1). cbn [bind].
    destruct (getA g1 i i) as [[g2 a]|e]; cbn [bind]; [|reflexivity].
    rewrite (cu_reduce_agree i U1 U1' i i a) by (intros k Hk; split; apply Hi1; lia).
    set (d := cu_reduce i U1' i i a).
    assert (Hag : forall r, uagree (i + 1) (mset U1 i i r) (mset U1' i i r)).
    { intros r b c Hb Hcc. unfold mset. destruct (Nat.eqb_spec b i), (Nat.eqb_spec c i); cbn [andb];
        try reflexivity; try lia; [subst c; apply Hi1; lia|apply Ha1; lia]. }
    destruct (nleb d nzero).
    + destruct (nsqrt (nopp d)) as [r|e]; cbn [bind]; [|reflexivity].
      eexists. split; [reflexivity|]. destruct (Nat.eqb_spec (i + 1) 0); [lia|]. apply Hag.
    + destruct (nsqrt d) as [r|e]; cbn [bind]; [|reflexivity].
      specialize (IH (i + 1)%nat g2 _ _ (Hag r)).
      destruct (cu_rows getA cnt (i + 1) g2 (mset U1 i i r)) as [[[g3 U3] p]|e]; [|assumption].
      destruct IH as (U3' & -> & H3). exists U3'. split; [reflexivity|].
      replace (i + S cnt)%nat with (i + 1 + cnt)%nat by lia. assumption.
Qed.

Lemma cu_factor_agree g (Q Q' : cutil A) : u_n Q = u_n Q' ->
  match cu_factor getA g Q with
  | Ok (g1, Q1) => exists Q1', cu_factor getA g Q' = Ok (g1, Q1') /\ u_n Q1 = u_n Q /\ u_n Q1' = u_n Q /\
      u_p Q1' = u_p Q1 /\ uagree (if Nat.eqb (u_p Q1) 0 then u_n Q else u_p Q1) (u_R Q1) (u_R Q1')
  | Raise e => cu_factor getA g Q' = Raise e
  end.
Proof.
  intros En. unfold cu_factor. rewrite <- En.
  pose proof (cu_rows_agree (u_n Q) 0 g (u_R Q) (u_R Q') ltac:(intros a b _ Hb; lia)) as Hr.
  destruct (cu_rows getA (u_n Q) 0 g (u_R Q)) as [[[g1 U1] p]|e]; cbn [bind]; [|rewrite Hr; reflexivity].
  destruct Hr as (U1' & -> & Ha). cbn [bind]. eexists. split; [reflexivity|]. cbn [u_n u_p u_R]. auto.
Qed.
End G.

Lemma cu_sum_agree cnt : forall lo (f f' : nat -> A) s,
  (forall k, (lo <= k < lo + cnt)%nat -> f k = f' k) -> cu_sum cnt lo f s = cu_sum cnt lo f' s.
Proof.
  induction cnt as [|c IH]; intros lo f f' s Hf; cbn [cu_sum]; [reflexivity|].
  rewrite Hf by lia. apply IH. intros k Hk. apply Hf. lia.
Qed.
Lemma cu_back_agree p (U U' : nat -> nat -> A) : uagree p U U' -> forall cnt v, (cnt <= p)%nat ->
  cu_back cnt p U v = cu_back cnt p U' v.
Proof.
  intros Ha. induction cnt as [|i IH]; intros v Hc; cbn [cu_back]; [reflexivity|].
  rewrite (Ha i i) by lia.
  rewrite (cu_sum_agree (p - (i + 1)) (i + 1) _ (fun k => nmul (U' i k) (v k))).
  - destruct (ndiv _ (U' i i)) as [q|e]; cbn [bind]; [apply IH; lia|reflexivity].
  - intros k Hk. rewrite (Ha i k) by lia. reflexivity.
Qed.
Lemma cu_witness_agree (Q Q' : cutil A) : u_p Q' = u_p Q ->
  uagree (if Nat.eqb (u_p Q) 0 then u_n Q else u_p Q) (u_R Q) (u_R Q') -> cu_witness Q' = cu_witness Q.
Proof.
  intros Ep Ha. unfold cu_witness, cu_is_spd. rewrite Ep. destruct (Nat.eqb_spec (u_p Q) 0) as [E|E]; [reflexivity|].
  rewrite <- (Ha (u_p Q - 1) (u_p Q - 1))%nat by lia.
  destruct (if neqb (u_R Q (u_p Q - 1)%nat (u_p Q - 1)%nat) nzero then Ok none else _) as [v1|e]; cbn [bind]; [|reflexivity].
  rewrite (cu_back_agree _ _ _ Ha) by lia. reflexivity.
Qed.
End LawFree.

Lemma cu_sym_quad_R (Q : cutil R) v M : cu_sym_quad Q v M = bf (u_p Q) M v v.
Proof.
  unfold cu_sym_quad. rewrite cu_sum_R. cbn [nzero RNum]. rewrite Rplus_0_l. unfold bf, dot, mvr, dot.
  apply rsum_ext. intros i _. cbn [nmul RNum Nat.add]. f_equal. rewrite cu_sum_R. rewrite Rplus_0_l.
  reflexivity.
Qed.
