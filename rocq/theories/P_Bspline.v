(** Lemmas for T_Bspline.v *)
From Coq Require Import Reals Lra Lia Psatz.
From Verif Require Import Base S_LinAlg P_LinAlg S_Misc S_Lmi S_Bspline M_Misc P_Misc M_Bspline.
Local Open Scope R_scope.

Lemma increasing_lt n t : increasing n t -> forall i j, (i < j < n)%nat -> t i < t j.
Proof.
  intros H i j. induction j as [|j IH]; intros Hij; [lia|].
  destruct (Nat.eq_dec i j) as [->|Ne]; [apply H; lia|].
  apply Rlt_trans with (t j); [apply IH; lia|apply H; lia].
Qed.

(** ** find_interval *)
Definition is_interval (t : nat -> R) (n k : nat) (x : R) (l : nat) : Prop :=
  (k <= l < n)%nat /\ (l = k \/ t l <= x) /\ (S l = n \/ x < t (S l)).

Lemma find_down_spec t x r : forall l, (r <= l)%nat -> let l' := find_down r l t x in
  (l - r <= l' <= l)%nat /\ ((l' = l - r)%nat \/ t l' <= x).
Proof.
  induction r as [|r IH]; intros l Hl; cbn [find_down]; cbv zeta; [split; [lia|left; lia]|].
  destruct (nltb x (t l)) eqn:E.
  - assert (X := IH (l - 1)%nat ltac:(lia)). cbv zeta in X. destruct X as [X1 X2]. split; [lia|]. destruct X2; [left; lia|right; assumption].
  - apply Rltb_false in E. split; [lia|right; exact E].
Qed.
Lemma find_up_spec t x r : forall l, let l' := find_up r l t x in
  (l <= l' <= l + r)%nat /\ (l' = l \/ t l' <= x) /\ ((l' = l + r)%nat \/ x < t (S l')).
Proof.
  induction r as [|r IH]; intros l; cbn [find_up]; cbv zeta; [split; [lia|split; left; lia]|].
  destruct (nleb (t (S l)) x) eqn:E.
  - assert (X := IH (S l)). cbv zeta in X. destruct X as [X1 [X2 X3]]. split; [lia|]. split.
    + apply Rleb_true in E. destruct X2 as [->|X2]; right; assumption.
    + destruct X3; [left; lia|right; assumption].
  - apply Rleb_false in E. split; [lia|]. split; [left; reflexivity|right; exact E].
Qed.
Lemma find_interval_spec t n k prev x : (k < n)%nat -> is_interval t n k x (find_interval t n k prev x).
Proof.
  intros Hk. unfold find_interval. set (l0 := if andb _ _ then prev else k).
  assert (H0 : (k <= l0 < n)%nat).
  { unfold l0. destruct (Nat.ltb_spec k prev), (Nat.ltb_spec prev n); cbn [andb]; lia. }
  assert (D := find_down_spec t x (l0 - k) l0 ltac:(lia)). cbv zeta in D. set (l1 := find_down _ _ _ _) in *.
  assert (U := find_up_spec t x (n - 1 - l1) l1). cbv zeta in U. set (l2 := find_up _ _ _ _) in *.
  destruct D as [D1 D2]. destruct U as [U1 [U2 U3]]. split; [lia|]. split.
  - destruct U2 as [->|U2]; [|right; exact U2]. destruct D2 as [D2|D2]; [left; lia|right; exact D2].
  - destruct U3 as [U3|U3]; [left; lia|right; exact U3].
Qed.
Lemma is_interval_unique t n k x l l' : increasing (n + k + 1) t -> is_interval t n k x l -> is_interval t n k x l' -> l = l'.
Proof.
  intros Ht. assert (W : forall l l', is_interval t n k x l -> is_interval t n k x l' -> ~ (l < l')%nat).
  { clear l l'. intros l l' [H1 [H2 H3]] [H1' [H2' H3']] L.
    destruct H2' as [->|H2']; [lia|]. destruct H3 as [H3|H3]; [lia|].
    destruct (Nat.eq_dec (S l) l') as [<-|Ne]; [lra|].
    assert (X := increasing_lt _ _ Ht (S l) l' ltac:(lia)). lra. }
  intros H H'. assert (A := W _ _ H H'). assert (B := W _ _ H' H). lia.
Qed.

(** ** the basis functions on interval l *)
Fixpoint pb (t : nat -> R) (l : nat) (x : R) (j a : nat) : R :=
  match j with
  | 0%nat => if Nat.eqb a 0 then 1 else 0
  | S j' => (if Nat.eqb a 0 then 0 else pb t l x j' (a - 1) * ((x - t (l + a - j)%nat) / (t (l + a)%nat - t (l + a - j)%nat)))
            + (if Nat.ltb a j then pb t l x j' a * ((t (l + a + 1)%nat - x) / (t (l + a + 1)%nat - t (l + a + 1 - j)%nat)) else 0)
  end.

Lemma de_boor_ok t k l x : (k <= l)%nat -> increasing (l + k + 1) t ->
  exists h, de_boor t k l x = Ok h /\ forall a, (a <= k)%nat -> h a = pb t l x k a.
Proof.
  intros Hl Ht. unfold de_boor.
  set (P := fun (i : nat) (hh : nat -> R) => forall a, (a <= i - 1)%nat -> hh a = pb t l x (i - 1) a).
  match goal with |- context [for_range k 1 ?body ?s] => destruct (for_range_ok P body k 1 s) as (h & E & Hh) end.
  - intros a Ha. assert (a = 0)%nat as -> by lia. reflexivity.
  - intros j hh Hj Hhh.
    set (L := fun a => if Nat.eqb a 0 then 0 else hh (a - 1)%nat * ((x - t (l + a - j)%nat) / (t (l + a)%nat - t (l + a - j)%nat))).
    set (Q := fun (n : nat) (h : nat -> R) => (forall a, (a < n - 1)%nat -> h a = pb t l x j a) /\ h (n - 1)%nat = L (n - 1)%nat).
    match goal with |- context [for_range j 1 ?body ?s] => destruct (for_range_ok Q body j 1 s) as (h & E & Hq) end.
    + split; [intros a Ha; lia|]. unfold vset, L. reflexivity.
    + intros n h Hn [Q1 Q2].
      assert (D : t (l + n - j)%nat < t (l + n)%nat) by (apply (increasing_lt _ _ Ht); lia).
      destruct (neqb (t (l + n)%nat) (t (l + n - j)%nat)) eqn:E; [apply Reqb_true in E; lra|].
      change (nsub (t (l + n)%nat) (t (l + n - j)%nat)) with (t (l + n)%nat - t (l + n - j)%nat).
      rewrite rdiv_ok by lra. cbn [bind]. eexists. split; [reflexivity|]. split.
      * intros a Ha. unfold vset. destruct (Nat.eqb_spec a n) as [|_]; [lia|].
        destruct (Nat.eqb_spec a (n - 1)) as [->|Na]; [|apply Q1; lia].
        rewrite Q2. unfold L. destruct j as [|j]; [lia|]. cbn [pb].
        rewrite (Hhh (n - 1)%nat) by lia. destruct (Nat.ltb_spec (n - 1) (S j)) as [_|]; [|lia].
        replace (l + (n - 1) + 1)%nat with (l + n)%nat by lia. rewrite Nat.sub_succ, Nat.sub_0_r.
        destruct (Nat.eqb_spec (n - 1) 0) as [Z|Z].
        -- cbn. field. lra.
        -- rewrite (Hhh (n - 1 - 1)%nat) by lia. rewrite Nat.sub_succ, Nat.sub_0_r.
           assert (D2 : t (l + (n - 1) - S j)%nat < t (l + (n - 1))%nat) by (apply (increasing_lt _ _ Ht); lia).
           cbn. unfold Rdiv. ring.
      * unfold vset. replace (S n - 1)%nat with n by lia. rewrite Nat.eqb_refl. unfold L.
        destruct (Nat.eqb_spec n 0) as [|_]; [lia|]. cbn. unfold Rdiv. ring.
    + exists h. split; [exact E|]. destruct Hq as [Q1 Q2]. intros a Ha. replace (S j - 1)%nat with j in * by lia.
      replace (1 + j - 1)%nat with j in * by lia.
      destruct (Nat.eq_dec a j) as [->|Na]; [|apply Q1; lia]. rewrite Q2. unfold L. destruct j as [|j]; [lia|]. cbn [pb].
      rewrite Nat.ltb_irrefl, Rplus_0_r. destruct (Nat.eqb_spec (S j) 0) as [|_]; [lia|].
      rewrite (Hhh (S j - 1)%nat) by lia. replace (S j - 1)%nat with j by lia. reflexivity.
  - exists h. split; [exact E|]. intros a Ha. unfold P in Hh. replace (1 + k - 1)%nat with k in Hh by lia. apply Hh, Ha.
Qed.

Lemma bspline_eval_ok t n k c prev x : (k < n)%nat -> increasing (n + k + 1) t ->
  exists l, is_interval t n k x l /\
    bspline_eval t n k c prev x = Ok (rsum (k + 1) (fun a => c (l + a - k)%nat * pb t l x k a)).
Proof.
  intros Hk Ht. assert (HI := find_interval_spec t n k prev x Hk). unfold bspline_eval.
  set (l := find_interval _ _ _ _ _) in *. exists l. split; [exact HI|].
  destruct (de_boor_ok t k l x) as (h & E & Hh); [apply HI|intros i Hi; apply Ht; destruct HI; lia|].
  rewrite E. cbn [bind]. f_equal. apply rsum_ext. intros a Ha. rewrite Hh by lia. reflexivity.
Qed.

(** ** agreement with the Cox - de Boor definition *)
Lemma basis_pb t N l x : increasing N t -> t l <= x -> x < t (S l) -> forall j i, (j <= l)%nat -> (i + j + 1 < N)%nat -> (S l < N)%nat ->
  basis t j i x = if andb (Nat.leb l (i + j)) (Nat.leb i l) then pb t l x j (i + j - l) else 0.
Proof.
  intros Ht H1 H2. induction j as [|j IH]; intros i Hj Hi HN.
  - cbn [basis pb]. rewrite Nat.add_0_r. destruct (Nat.eq_dec i l) as [->|Ne].
    + rewrite Nat.leb_refl, Nat.sub_diag. cbn. destruct (Rle_dec (t l) x); [|lra]. destruct (Rlt_dec x (t (S l))); [reflexivity|lra].
    + replace (andb (Nat.leb l i) (Nat.leb i l)) with false.
      2:{ destruct (Nat.leb_spec l i), (Nat.leb_spec i l); try reflexivity. lia. }
      destruct (Rle_dec (t i) x) as [A|]; [|reflexivity]. destruct (Rlt_dec x (t (S i))) as [B|]; [|reflexivity]. exfalso.
      destruct (Nat.lt_total i l) as [L|[L|L]]; [|lia|].
      * destruct (Nat.eq_dec (S i) l) as [<-|N']; [lra|]. assert (X := increasing_lt _ _ Ht (S i) l ltac:(lia)). lra.
      * destruct (Nat.eq_dec (S l) i) as [<-|N']; [lra|]. assert (X := increasing_lt _ _ Ht (S l) i ltac:(lia)). lra.
  - cbn [basis]. rewrite !IH by lia.
    destruct (Nat.leb_spec l (i + S j)) as [A|A], (Nat.leb_spec i l) as [B|B]; cbn [andb].
    + cbn [pb]. set (a := (i + S j - l)%nat).
      replace (l + a - S j)%nat with i by lia. replace (l + a)%nat with (i + S j)%nat by lia.
      replace (i + S j + 1 - S j)%nat with (S i) by lia.
      f_equal.
      * destruct (Nat.eqb_spec a 0) as [Z|Z].
        -- destruct (Nat.leb_spec l (i + j)); [lia|]. cbn [andb]. ring.
        -- destruct (Nat.leb_spec l (i + j)); [|lia]. cbn [andb]. replace (i + j - l)%nat with (a - 1)%nat by lia. ring.
      * destruct (Nat.leb_spec l (S i + j)); [|lia]. cbn [andb]. destruct (Nat.ltb_spec a (S j)).
        -- destruct (Nat.leb_spec (S i) l); [|lia]. replace (S i + j - l)%nat with a by lia. ring.
        -- destruct (Nat.leb_spec (S i) l); [lia|]. ring.
    + destruct (Nat.leb_spec (S i) l); [lia|]. rewrite !Bool.andb_false_r. ring.
    + destruct (Nat.leb_spec l (i + j)); [lia|]. destruct (Nat.leb_spec l (S i + j)); [lia|]. cbn [andb]. ring.
    + lia.
Qed.

Lemma rsum_window n p m f : (p + m <= n)%nat -> (forall i, (i < n)%nat -> (i < p \/ p + m <= i)%nat -> f i = 0) ->
  rsum n f = rsum m (fun a => f (p + a)%nat).
Proof.
  revert m. induction n as [|n IH]; intros m Hm Hz.
  - assert (m = 0)%nat as -> by lia. reflexivity.
  - cbn [rsum]. destruct (le_lt_dec (p + m) n) as [L|L].
    + rewrite (Hz n) by lia. rewrite (IH m L); [ring|]. intros i Hi Hc. apply Hz; lia.
    + destruct m as [|m].
      * cbn [rsum]. rewrite (Hz n) by lia. rewrite rsum_0; [ring|]. intros k Hk. apply Hz; lia.
      * cbn [rsum]. replace (p + m)%nat with n by lia. f_equal. apply IH; [lia|]. intros i Hi Hc. apply Hz; lia.
Qed.

Lemma spline_pb t n k l c x : increasing (n + k + 1) t -> (k <= l < n)%nat -> t l <= x < t (S l) ->
  spline t k n c x = rsum (k + 1) (fun a => c (l + a - k)%nat * pb t l x k a).
Proof.
  intros Ht Hl Hx. unfold spline. rewrite (rsum_window n (l - k) (k + 1)).
  - apply rsum_ext. intros a Ha. rewrite (basis_pb t (n + k + 1) l) by (assumption || lra || lia).
    destruct (Nat.leb_spec l (l - k + a + k)); [|lia]. destruct (Nat.leb_spec (l - k + a) l); [|lia]. cbn [andb].
    replace (l - k + a + k - l)%nat with a by lia. replace (l - k + a)%nat with (l + a - k)%nat by lia. reflexivity.
  - lia.
  - intros i Hi Hc. rewrite (basis_pb t (n + k + 1) l) by (assumption || lra || lia).
    replace (andb _ _) with false; [ring|]. destruct (Nat.leb_spec l (i + k)), (Nat.leb_spec i l); try reflexivity. lia.
Qed.

(** ** partition of unity and bounds *)
Lemma pb_sum t l x N : increasing N t -> forall j, (j <= l)%nat -> (l + j < N)%nat -> rsum (j + 1) (pb t l x j) = 1.
Proof.
  intros Ht. induction j as [|j IH]; intros Hj HN; [cbn; ring|].
  replace (S j + 1)%nat with (S (j + 1)) by lia.
  assert (E : rsum (S (j + 1)) (pb t l x (S j)) = rsum (j + 1) (pb t l x j)).
  { rewrite (rsum_ext _ _ (fun a => (if Nat.eqb a 0 then 0 else pb t l x j (a - 1) * ((x - t (l + a - S j)%nat) / (t (l + a)%nat - t (l + a - S j)%nat)))
            + (if Nat.ltb a (S j) then pb t l x j a * ((t (l + a + 1)%nat - x) / (t (l + a + 1)%nat - t (l + a + 1 - S j)%nat)) else 0))) by reflexivity.
    rewrite rsum_plus, rsum_shift. cbn [Nat.eqb]. cbn [rsum]. rewrite Nat.add_1_r, Nat.ltb_irrefl, Rplus_0_l, Rplus_0_r.
    rewrite <- rsum_plus. apply rsum_ext. intros a Ha. destruct (Nat.ltb_spec a (S j)); [|lia].
    replace (S a - 1)%nat with a by lia. replace (l + S a)%nat with (l + a + 1)%nat by lia.
    assert (D : t (l + a + 1 - S j)%nat < t (l + a + 1)%nat) by (apply (increasing_lt _ _ Ht); lia). field. lra. }
  rewrite E. apply IH; lia.
Qed.
Lemma pb_nonneg t l x N : increasing N t -> t l <= x <= t (S l) -> forall j a, (j <= l)%nat -> (l + j < N)%nat -> (a <= j)%nat -> 0 <= pb t l x j a.
Proof.
  intros Ht Hx. induction j as [|j IH]; intros a Hj HN Ha; cbn [pb]; [destruct (Nat.eqb a 0); lra|].
  assert (Hle : forall p q, (p <= q < N)%nat -> t p <= t q).
  { intros p q Hpq. destruct (Nat.eq_dec p q) as [->|]; [lra|]. left. apply (increasing_lt _ _ Ht). lia. }
  apply Rplus_le_le_0_compat.
  - destruct (Nat.eqb_spec a 0) as [|Z]; [lra|].
    assert (D : t (l + a - S j)%nat < t (l + a)%nat) by (apply (increasing_lt _ _ Ht); lia).
    assert (t (l + a - S j)%nat <= t l) by (apply Hle; lia).
    apply Rmult_le_pos; [apply IH; lia|]. apply Rmult_le_pos; [lra|]. left. apply Rinv_0_lt_compat. lra.
  - destruct (Nat.ltb_spec a (S j)) as [L|]; [|lra].
    assert (D : t (l + a + 1 - S j)%nat < t (l + a + 1)%nat) by (apply (increasing_lt _ _ Ht); lia).
    assert (t (S l) <= t (l + a + 1)%nat) by (apply Hle; lia).
    apply Rmult_le_pos; [apply IH; lia|]. apply Rmult_le_pos; [lra|]. left. apply Rinv_0_lt_compat. lra.
Qed.

(** ** uniform knots, degree 2 *)
Definition unif (h : R) : nat -> R := fun i => INR i * h.
Definition q2 (c : nat -> R) (l : nat) (u : R) : R :=
  c (l - 2)%nat * ((1 - u) * (1 - u) / 2) + c (l - 1)%nat * ((1 + 2 * u - 2 * u * u) / 2) + c l * (u * u / 2).
Definition slope (c : nat -> R) (l : nat) (u : R) : R :=
  (1 - u) * (c (l - 1)%nat - c (l - 2)%nat) + u * (c l - c (l - 1)%nat).

Lemma unif_increasing h N : 0 < h -> increasing N (unif h).
Proof. intros Hh i _. unfold unif. rewrite S_INR. nra. Qed.

Lemma q2_pb h c l x : 0 < h -> (2 <= l)%nat ->
  rsum (2 + 1) (fun a => c (l + a - 2)%nat * pb (unif h) l x 2 a) = q2 c l (x / h - INR l).
Proof.
  intros Hh Hl. destruct l as [|[|l]]; [lia|lia|]. unfold q2. cbn [rsum Nat.add].
  replace (S (S (l + 0)) - 2)%nat with l by lia. replace (S (S (l + 1)) - 2)%nat with (S l) by lia.
  replace (S (S (l + 2)) - 2)%nat with (S (S l)) by lia. replace (S (S l) - 2)%nat with l by lia. replace (S (S l) - 1)%nat with (S l) by lia.
  cbn [pb Nat.eqb Nat.ltb Nat.leb Nat.sub]. unfold unif.
  repeat match goal with |- context [INR (?a - ?b)] => replace (a - b)%nat with l by lia || replace (a - b)%nat with (S l) by lia || replace (a - b)%nat with (S (S l)) by lia end.
  replace (S (S l) + 0 + 1)%nat with (S (S (S l))) by lia. replace (S (S l) + 1 + 1)%nat with (S (S (S (S l)))) by lia.
  replace (S (S l) + 1)%nat with (S (S (S l))) by lia. replace (S (S l) + 2)%nat with (S (S (S (S l)))) by lia.
  replace (S (S (S l)) - 1)%nat with (S (S l)) by lia. replace (S (S (S l)) - 2)%nat with (S l) by lia. replace (S (S (S (S l))) - 2)%nat with (S (S l)) by lia.
  rewrite !S_INR. set (L := INR l). field. lra.
Qed.

Lemma q2_diff c l u v : q2 c l v - q2 c l u = (v - u) * (slope c l u + slope c l v) / 2.
Proof. unfold q2, slope. field. Qed.
Lemma q2_join c l : (2 <= l)%nat -> q2 c l 1 = q2 c (S l) 0.
Proof.
  intros Hl. unfold q2. replace (S l - 2)%nat with (l - 1)%nat by lia. replace (S l - 1)%nat with l by lia. field.
Qed.
Lemma q2_dec c l u v : u <= v -> slope c l u <= 0 -> slope c l v <= 0 -> q2 c l v <= q2 c l u.
Proof. intros H1 H2 H3. assert (E := q2_diff c l u v). nra. Qed.
Lemma slope_between c l u v w : u <= w <= v -> slope c l u <= 0 -> slope c l v <= 0 -> slope c l w <= 0.
Proof.
  intros [H1 H2] A B. unfold slope in *. set (a := c (l - 1)%nat - c (l - 2)%nat) in *. set (b := c l - c (l - 1)%nat) in *.
  destruct (Rle_or_lt b a); nra.
Qed.
(** a necessary condition *)
Lemma q2_dec_nec c l u v : u < v -> (forall x y, u <= x -> x <= y -> y <= v -> q2 c l y <= q2 c l x) -> slope c l u <= 0 /\ slope c l v <= 0.
Proof.
  intros Huv H. set (s' := (c l - c (l - 1)%nat) - (c (l - 1)%nat - c (l - 2)%nat)).
  assert (Es : forall w d, slope c l (w + d) = slope c l w + d * s') by (intros; unfold slope, s'; ring).
  assert (Hs : 0 < Rabs s' + 1) by (assert (X := Rabs_pos s'); lra).
  split; apply Rnot_lt_le; intros Hp.
  - set (p := slope c l u) in *. set (d := Rmin (v - u) (p / (Rabs s' + 1))).
    assert (Hq : 0 < p / (Rabs s' + 1)) by (apply Rdiv_lt_0_compat; lra).
    assert (Hd : 0 < d) by (unfold d; apply Rmin_glb_lt; lra).
    assert (Hd1 : d <= v - u) by apply Rmin_l. assert (Hd2 : d <= p / (Rabs s' + 1)) by apply Rmin_r.
    assert (Hd3 : d * (Rabs s' + 1) <= p).
    { apply Rle_trans with (p / (Rabs s' + 1) * (Rabs s' + 1)); [apply Rmult_le_compat_r; lra|]. right. field. lra. }
    specialize (H u (u + d) ltac:(lra) ltac:(lra) ltac:(lra)). assert (E := q2_diff c l u (u + d)). rewrite Es in E. fold p in E.
    assert (X := Rle_abs (- s')). rewrite Rabs_Ropp in X. nra.
  - set (p := slope c l v) in *. set (d := Rmin (v - u) (p / (Rabs s' + 1))).
    assert (Hq : 0 < p / (Rabs s' + 1)) by (apply Rdiv_lt_0_compat; lra).
    assert (Hd : 0 < d) by (unfold d; apply Rmin_glb_lt; lra).
    assert (Hd1 : d <= v - u) by apply Rmin_l. assert (Hd2 : d <= p / (Rabs s' + 1)) by apply Rmin_r.
    assert (Hd3 : d * (Rabs s' + 1) <= p).
    { apply Rle_trans with (p / (Rabs s' + 1) * (Rabs s' + 1)); [apply Rmult_le_compat_r; lra|]. right. field. lra. }
    specialize (H (v - d) v ltac:(lra) ltac:(lra) ltac:(lra)). assert (E := q2_diff c l (v - d) v).
    assert (E2 := Es (v - d) d). replace (v - d + d) with v in E2 by ring. fold p in E, E2.
    assert (X := Rle_abs s'). nra.
Qed.

(** the function evaluated, for knots [unif h] *)
Lemma eval_unif h n c : 0 < h -> (3 <= n)%nat -> exists f : R -> R,
  (forall prev x, bspline_eval (unif h) n 2 c prev x = Ok (f x)) /\
  (forall x l, is_interval (unif h) n 2 x l -> f x = q2 c l (x / h - INR l)).
Proof.
  intros Hh Hn.
  assert (Ht := unif_increasing h (n + 2 + 1) Hh).
  exists (fun x => let l := find_interval (unif h) n 2 2 x in q2 c l (x / h - INR l)). split.
  - intros prev x. destruct (bspline_eval_ok (unif h) n 2 c prev x ltac:(lia) Ht) as (l & Hl & E). rewrite E. f_equal.
    rewrite q2_pb by (assumption || destruct Hl; lia). cbv zeta.
    rewrite (is_interval_unique _ _ _ _ _ _ Ht (find_interval_spec (unif h) n 2 2 x ltac:(lia)) Hl). reflexivity.
  - intros x l Hl. cbv zeta. rewrite (is_interval_unique _ _ _ _ _ _ Ht (find_interval_spec (unif h) n 2 2 x ltac:(lia)) Hl). reflexivity.
Qed.

(** monotonicity between two bounds that may lie outside of the base interval *)
Lemma unif_dec h n c f lo hi : 0 < h -> (3 <= n)%nat ->
  (forall x l, is_interval (unif h) n 2 x l -> f x = q2 c l (x / h - INR l)) ->
  non_increasing n c -> (lo < 0 -> slope c 2 lo <= 0) -> (1 < hi -> slope c (n - 1) hi <= 0) ->
  non_increasing_on ((2 + lo) * h) ((INR n - 1 + hi) * h) f.
Proof.
  intros Hh Hn Hf Hc Hlo Hhi.
  assert (S0 : forall l, (2 <= l < n)%nat -> slope c l 0 <= 0 /\ slope c l 1 <= 0).
  { intros l Hl. assert (A1 := Hc (l - 1)%nat ltac:(lia)). assert (A0 := Hc (l - 2)%nat ltac:(lia)).
    replace (S (l - 1)) with l in A1 by lia. replace (S (l - 2)) with (l - 1)%nat in A0 by lia. unfold slope. lra. }
  set (good := fun l u => (2 <= l < n)%nat /\ (if Nat.eqb l 2 then lo <= u else 0 <= u) /\ (if Nat.eqb (S l) n then u <= hi else u <= 1)).
  assert (HS : forall l u, good l u -> slope c l u <= 0).
  { intros l u [Hl [G1 G2]]. destruct (S0 l Hl) as [A0 A1].
    destruct (Rle_or_lt 0 u) as [U0|U0].
    - destruct (Rle_or_lt u 1) as [U1|U1]; [apply (slope_between c l 0 1); auto|].
      destruct (Nat.eqb_spec (S l) n) as [E|]; [|lra]. replace (n - 1)%nat with l in Hhi by lia.
      apply (slope_between c l 1 hi); [lra|exact A1|apply Hhi; lra].
    - destruct (Nat.eqb_spec l 2) as [E|]; [|lra]. subst l. apply (slope_between c 2 lo 0); [lra|apply Hlo; lra|exact A0]. }
  assert (HG : forall x l, (2 + lo) * h <= x -> x <= (INR n - 1 + hi) * h -> is_interval (unif h) n 2 x l -> good l (x / h - INR l)).
  { intros x l X1 X2 [Hl [I1 I2]]. unfold unif in I1, I2.
    assert (Ex : x = (x / h) * h) by (field; lra). set (w := x / h) in *.
    split; [exact Hl|]. split.
    - destruct (Nat.eqb_spec l 2) as [->|Ne]; [change (INR 2) with 2; nra|]. destruct I1 as [|I1]; [lia|]. nra.
    - destruct (Nat.eqb_spec (S l) n) as [<-|Ne]; [rewrite S_INR in X2; nra|]. destruct I2 as [|I2]; [lia|]. rewrite S_INR in I2. nra. }
  (* along the intervals *)
  assert (CH : forall k l u v, good l u -> good (l + k)%nat v -> (k = 0%nat -> u <= v) -> q2 c (l + k) v <= q2 c l u).
  { induction k as [|k IH]; intros l u v Gu Gv Huv.
    - rewrite Nat.add_0_r in *. apply q2_dec; [apply Huv; reflexivity|apply HS, Gu|apply HS, Gv].
    - assert (Gl : good l 1 /\ u <= 1).
      { destruct Gu as [Hl [G1 G2]]. destruct Gv as [Hl' _]. destruct (Nat.eqb_spec (S l) n) as [|Ne]; [lia|]. split; [|exact G2]. split; [exact Hl|]. split.
        - destruct (Nat.eqb l 2); lra.
        - destruct (Nat.eqb_spec (S l) n); [lia|lra]. }
      destruct Gl as [Gl U1].
      apply Rle_trans with (q2 c l 1); [|apply q2_dec; [exact U1|apply HS, Gu|apply HS, Gl]].
      rewrite q2_join by (destruct Gu; lia). replace (l + S k)%nat with (S l + k)%nat in * by lia.
      destruct Gu as [Hl _].
      destruct k as [|k].
      + rewrite Nat.add_0_r in *. destruct Gv as [Hl' [G1 G2]]. destruct (Nat.eqb_spec (S l) 2); [lia|].
        apply q2_dec; [exact G1|apply S0; lia|]. apply HS. split; [exact Hl'|]. split; [destruct (Nat.eqb_spec (S l) 2); [lia|exact G1]|exact G2].
      + apply IH; [|exact Gv|discriminate]. destruct Gv as [Hl' _]. split; [lia|]. split.
        * destruct (Nat.eqb_spec (S l) 2); [lia|lra].
        * destruct (Nat.eqb_spec (S (S l)) n); [lia|lra]. }
  intros x y Hx Hxy Hy.
  assert (Ix := find_interval_spec (unif h) n 2 2 x ltac:(lia)). assert (Iy := find_interval_spec (unif h) n 2 2 y ltac:(lia)).
  set (l := find_interval _ _ _ _ x) in *. set (l' := find_interval _ _ _ _ y) in *.
  rewrite (Hf x l Ix), (Hf y l' Iy).
  assert (Hll : (l <= l')%nat).
  { destruct (le_lt_dec l l') as [|L]; [assumption|exfalso]. destruct Ix as [A1 [[A2|A2] A3]]; [destruct Iy; lia|].
    destruct Iy as [B1 [B2 [B3|B3]]]; [lia|]. unfold unif in A2, B3.
    assert (INR (S l') <= INR l) by (apply le_INR; lia). nra. }
  replace l' with (l + (l' - l))%nat at 1 by lia. apply CH.
  - apply HG; [lra|lra|exact Ix].
  - replace (l + (l' - l))%nat with l' by lia. apply HG; [lra|lra|exact Iy].
  - intros E. assert (l' = l) as -> by lia. unfold Rdiv. assert (0 < / h) by (apply Rinv_0_lt_compat; exact Hh). nra.
Qed.
