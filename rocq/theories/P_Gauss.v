(** The Gaussian kernel matrix of pairwise different sites is positive definite, in any dimension;
    create_2d_isotropic. *)
From Coq Require Import Reals Lra Lia.
From Verif Require Import Base S_LinAlg P_LinAlg S_LowDiscr M_Misc P_Misc M_LowDiscr.
Local Open Scope R_scope.

Section Kernel.
Variables (n d : nat) (x : nat -> nat -> R).

(** sum_ij v_i v_j (x_i . x_j)^k *)
Definition sq (k : nat) (v : nat -> R) : R :=
  rsum n (fun i => rsum n (fun j => v i * v j * dot d (x i) (x j) ^ k)).
Definition mulc (e : nat) (v : nat -> R) : nat -> R := fun i => v i * x i e.

Lemma sq_0 v : sq 0 v = rsum n v * rsum n v.
Proof.
  unfold sq. rewrite <- rsum_scal_r. apply rsum_ext; intros i _. cbn [pow].
  rewrite <- rsum_scal_l. apply rsum_ext; intros j _. ring.
Qed.
Lemma sq_S k v : sq (S k) v = rsum d (fun e => sq k (mulc e v)).
Proof.
  unfold sq, mulc. rewrite (rsum_exchange d n). apply rsum_ext; intros i _.
  rewrite (rsum_exchange d n). apply rsum_ext; intros j _. cbn [pow].
  rewrite (rsum_ext d _ (fun e => x i e * x j e * (v i * v j * dot d (x i) (x j) ^ k))) by (intros; ring).
  rewrite rsum_scal_r. unfold dot. ring.
Qed.
Lemma sq_nonneg k : forall v, 0 <= sq k v.
Proof.
  induction k as [|k IH]; intros v; [rewrite sq_0; apply Rle_0_sqr|].
  rewrite sq_S. apply rsum_nonneg; intros; apply IH.
Qed.

(** products of coordinates annihilated by v *)
Fixpoint mono (w : list nat) (i : nat) : R :=
  match w with [] => 1 | e :: w' => x i e * mono w' i end.
Definition coords (w : list nat) : Prop := Forall (fun e => (e < d)%nat) w.
Definition ann (v : nat -> R) : Prop := forall w, coords w -> rsum n (fun i => v i * mono w i) = 0.

Lemma rsum_zero_term m f e : (forall k, (k < m)%nat -> 0 <= f k) -> rsum m f = 0 -> (e < m)%nat -> f e = 0.
Proof.
  intros Hf H0 He. destruct (Hf e He) as [L|L]; [|symmetry; exact L].
  assert (X := rsum_pos_term m f e Hf He L). lra.
Qed.
Lemma sq_ann v : (forall k, sq k v = 0) -> ann v.
Proof.
  intros H w Hw. revert v H. induction Hw as [|e w He _ IH]; intros v H.
  - cbn [mono]. specialize (H 0%nat). rewrite sq_0 in H.
    rewrite (rsum_ext _ _ v) by (intros; ring). apply Rsqr_0_uniq. exact H.
  - assert (E : forall k, sq k (mulc e v) = 0).
    { intros k. specialize (H (S k)). rewrite sq_S in H.
      apply (rsum_zero_term d (fun e => sq k (mulc e v))); [intros; apply sq_nonneg|exact H|exact He]. }
    rewrite <- (IH _ E). apply rsum_ext; intros i _. cbn [mono]. unfold mulc. ring.
Qed.
Lemma ann_mul v e c : (e < d)%nat -> ann v -> ann (fun i => v i * (x i e - c)).
Proof.
  intros He H w Hw.
  rewrite (rsum_ext _ _ (fun i => v i * mono (e :: w) i - c * (v i * mono w i))) by (intros; cbn [mono]; ring).
  rewrite rsum_minus, rsum_scal_l, (H w Hw), H by (constructor; assumption). ring.
Qed.

Lemma ann_zero v : distinct_sites n d x -> ann v -> forall i0, (i0 < n)%nat -> v i0 = 0.
Proof.
  intros Hd Hv i0 Hi0.
  (* kill the other sites one after the other *)
  assert (X : forall m, (m <= n)%nat -> exists u c, ann u /\ c <> 0 /\ u i0 = c * v i0 /\
            forall j, (j < m)%nat -> j <> i0 -> u j = 0).
  { induction m as [|m IH]; intros Hm.
    - exists v, 1. split; [exact Hv|]. split; [lra|]. split; [ring|]. intros; lia.
    - destruct IH as [u [c [Hu [Hc [Hi Hz]]]]]; [lia|].
      destruct (Nat.eq_dec m i0) as [->|Hne].
      + exists u, c. repeat split; try assumption. intros j Hj Hji. apply Hz; lia.
      + destruct (Hd i0 m Hi0 ltac:(lia) ltac:(lia)) as [e [He Hxe]].
        exists (fun i => u i * (x i e - x m e)), (c * (x i0 e - x m e)).
        split; [apply ann_mul; assumption|]. split.
        { apply Rmult_integral_contrapositive_currified; [exact Hc|lra]. }
        split; [rewrite Hi; ring|].
        intros j Hj Hji. destruct (Nat.eq_dec j m) as [->|]; [ring|]. rewrite Hz by lia. ring. }
  destruct (X n (le_n n)) as [u [c [Hu [Hc [Hi Hz]]]]].
  assert (E := Hu [] ltac:(constructor)). cbn [mono] in E.
  rewrite (rsum_single n i0) in E; [|exact Hi0|intros k Hk Hki; rewrite Hz by assumption; ring].
  rewrite Hi in E. apply Rmult_eq_reg_l with c; [lra|exact Hc].
Qed.

(** limits of sums *)
Lemma rsum_cv m (f : nat -> nat -> R) l : (forall i, (i < m)%nat -> Un_cv (f i) (l i)) ->
  Un_cv (fun N => rsum m (fun i => f i N)) (rsum m l).
Proof.
  induction m as [|m IH]; intros H.
  - intros eps He. exists 0%nat. intros k _. cbn. rewrite R_dist_eq. exact He.
  - apply (CV_plus (fun N => rsum m (fun i => f i N)) (f m)); [apply IH; intros; apply H; lia|apply H; lia].
Qed.
Lemma cv_const_mult c (f : nat -> R) l : Un_cv f l -> Un_cv (fun N => c * f N) (c * l).
Proof.
  intros H. apply (CV_mult (fun _ => c) f); [|exact H].
  intros eps He. exists 0%nat. intros k _. rewrite R_dist_eq. exact He.
Qed.
Lemma exp_cv z : Un_cv (fun N => sum_f_R0 (fun k => / INR (fact k) * z ^ k) N) (exp z).
Proof. unfold exp. destruct (exist_exp z) as [l Hl]. exact Hl. Qed.

(** sum_ij u_i u_j exp(c x_i.x_j) *)
Definition expform (c : R) (u : nat -> R) : R :=
  rsum n (fun i => rsum n (fun j => u i * u j * exp (c * dot d (x i) (x j)))).
Definition part (c : R) (u : nat -> R) (N : nat) : R :=
  rsum n (fun i => rsum n (fun j => u i * u j * sum_f_R0 (fun k => / INR (fact k) * (c * dot d (x i) (x j)) ^ k) N)).
Lemma part_cv c u : Un_cv (part c u) (expform c u).
Proof.
  unfold part, expform.
  apply (rsum_cv n (fun i N => rsum n (fun j => u i * u j * sum_f_R0 (fun k => / INR (fact k) * (c * dot d (x i) (x j)) ^ k) N))).
  intros i _. apply (rsum_cv n (fun j N => u i * u j * sum_f_R0 (fun k => / INR (fact k) * (c * dot d (x i) (x j)) ^ k) N)).
  intros j _. apply cv_const_mult, exp_cv.
Qed.
Lemma part_term c u (a : nat -> R) k :
  rsum n (fun i => rsum n (fun j => u i * u j * (a k * (c * dot d (x i) (x j)) ^ k))) = a k * c ^ k * sq k u.
Proof.
  unfold sq. rewrite <- rsum_scal_l. apply rsum_ext; intros i _. rewrite <- rsum_scal_l. apply rsum_ext; intros j _.
  rewrite Rpow_mult_distr. ring.
Qed.
Lemma part_0 c u : part c u 0 = sq 0 u.
Proof.
  unfold part. cbn [sum_f_R0]. rewrite (part_term c u (fun k => / INR (fact k)) 0). cbn. field.
Qed.
Lemma part_S c u N : part c u (S N) = part c u N + / INR (fact (S N)) * c ^ S N * sq (S N) u.
Proof.
  rewrite <- (part_term c u (fun k => / INR (fact k)) (S N)). unfold part.
  rewrite <- rsum_plus. apply rsum_ext; intros i _. rewrite <- rsum_plus. apply rsum_ext; intros j _.
  cbn [sum_f_R0]. ring.
Qed.
Lemma coeff_pos c k : 0 < c -> 0 < / INR (fact k) * c ^ k.
Proof.
  intros Hc. apply Rmult_lt_0_compat; [apply Rinv_0_lt_compat, INR_fact_lt_0|apply pow_lt, Hc].
Qed.
Lemma part_growing c u : 0 < c -> Un_growing (part c u).
Proof.
  intros Hc N. rewrite part_S. assert (X := sq_nonneg (S N) u). assert (Y := coeff_pos c (S N) Hc).
  assert (0 <= / INR (fact (S N)) * c ^ S N * sq (S N) u) by (apply Rmult_le_pos; lra). lra.
Qed.
Lemma part_nonneg c u N : 0 < c -> 0 <= part c u N.
Proof.
  intros Hc. induction N as [|N IH]; [rewrite part_0; apply sq_nonneg|].
  assert (X := part_growing c u Hc N). lra.
Qed.
Lemma expform_le c u N : 0 < c -> part c u N <= expform c u.
Proof. intros Hc. apply growing_ineq; [apply part_growing, Hc|apply part_cv]. Qed.
Lemma expform_zero c u : 0 < c -> expform c u = 0 -> forall k, sq k u = 0.
Proof.
  intros Hc H0 k. assert (Hp : forall N, part c u N = 0).
  { intros N. assert (A := part_nonneg c u N Hc). assert (B := expform_le c u N Hc). lra. }
  destruct k as [|k]; [rewrite <- (part_0 c); apply Hp|].
  assert (E := part_S c u k). rewrite !Hp in E. assert (Y := coeff_pos c (S k) Hc).
  apply Rmult_eq_reg_l with (/ INR (fact (S k)) * c ^ S k); lra.
Qed.

Lemma dot_sub_sq (p q : nat -> R) : dot d (fun k => q k - p k) (fun k => q k - p k) = dot d p p + dot d q q - 2 * dot d p q.
Proof.
  unfold dot. rewrite <- rsum_plus, <- rsum_scal_l, <- rsum_minus. apply rsum_ext; intros; ring.
Qed.
Lemma gauss_form c v : 0 < c ->
  bf n (gauss_kernel c d x) v v = expform (2 * c) (fun i => v i * exp (- c * dot d (x i) (x i))).
Proof.
  intros Hc. rewrite bf_sums. unfold expform, gauss_kernel. apply rsum_ext; intros i _. apply rsum_ext; intros j _.
  rewrite dot_sub_sq.
  replace (- c * (dot d (x i) (x i) + dot d (x j) (x j) - 2 * dot d (x i) (x j)))
    with (- c * dot d (x i) (x i) + - c * dot d (x j) (x j) + 2 * c * dot d (x i) (x j)) by ring.
  rewrite !exp_plus. ring.
Qed.

Lemma gauss_sym c : sym n (gauss_kernel c d x).
Proof.
  intros i j _ _. unfold gauss_kernel. f_equal. f_equal. unfold dot. apply rsum_ext; intros; ring.
Qed.
Lemma gauss_pd c : 0 < c -> distinct_sites n d x -> pd n (gauss_kernel c d x).
Proof.
  intros Hc Hd v [i0 [Hi0 Hv]]. rewrite gauss_form by exact Hc.
  set (u := fun i => v i * exp (- c * dot d (x i) (x i))).
  assert (H2 : 0 < 2 * c) by lra.
  destruct (Rle_lt_or_eq_dec 0 (expform (2 * c) u)) as [L|L].
  - apply Rle_trans with (part (2 * c) u 0); [apply part_nonneg, H2|apply expform_le, H2].
  - exact L.
  - exfalso. assert (Z0 := ann_zero u Hd (sq_ann u (expform_zero _ u H2 (eq_sym L))) i0 Hi0).
    unfold u in Z0. apply Rmult_integral in Z0. destruct Z0 as [Z0|Z0]; [contradiction|].
    assert (X := exp_pos (- c * dot d (x i0) (x i0))). lra.
Qed.
(** two equal sites make it singular *)
Lemma gauss_not_pd c i j : (i < n)%nat -> (j < n)%nat -> i <> j -> (forall k, (k < d)%nat -> x i k = x j k) ->
  ~ pd n (gauss_kernel c d x).
Proof.
  intros Hi Hj Hij He Hp.
  set (v := fun k => (if Nat.eqb k i then 1 else 0) - (if Nat.eqb k j then 1 else 0)).
  assert (Hv : nonzero n v).
  { exists i. split; [exact Hi|]. unfold v. rewrite Nat.eqb_refl. destruct (Nat.eqb_spec i j); [contradiction|lra]. }
  specialize (Hp v Hv).
  assert (E : bf n (gauss_kernel c d x) v v = 0); [|lra].
  rewrite bf_sums. apply rsum_0. intros k _.
  rewrite (rsum_ext _ _ (fun l => v k * gauss_kernel c d x k l * (if Nat.eqb l i then 1 else 0) - v k * gauss_kernel c d x k l * (if Nat.eqb l j then 1 else 0))).
  2:{ intros l _. unfold v at 2. ring. }
  rewrite rsum_minus.
  rewrite (rsum_single n i); [|exact Hi|intros l _ Hl; destruct (Nat.eqb_spec l i); [contradiction|ring]].
  rewrite (rsum_single n j); [|exact Hj|intros l _ Hl; destruct (Nat.eqb_spec l j); [contradiction|ring]].
  rewrite !Nat.eqb_refl. assert (G : gauss_kernel c d x k i = gauss_kernel c d x k j).
  { unfold gauss_kernel. f_equal. f_equal. unfold dot. apply rsum_ext; intros m Hm. rewrite He by exact Hm. reflexivity. }
  rewrite G. ring.
Qed.
End Kernel.

(** ** create_2d_isotropic *)
Lemma isotropic_kernel_ok n d s : exists Sig, isotropic_kernel n d s = Ok Sig /\
  meq n Sig (gauss_kernel (12 / 100) d s).
Proof.
  unfold isotropic_kernel. set (G := gauss_kernel (12 / 100) d s).
  set (P := fun (i : nat) (D : nat -> nat -> R) => forall a b, (a < n)%nat -> (b < n)%nat -> (a < i \/ b < i)%nat -> D a b = G a b).
  destruct (for_range_ok P (fun i Sig =>
    for_range (n - i) i (fun j Sig =>
      let h k := s j k - s i k in
      let Sig := mset Sig i j (exp (- (12 / 100) * ndot d h h)) in
      Ok (mset Sig j i (Sig i j))) Sig) n 0 (fun _ _ => 0)) as (D & E & HD).
  - intros a b _ _ [H|H]; lia.
  - intros i D Hi HD.
    set (P2 := fun (j : nat) (D : nat -> nat -> R) => forall a b, (a < n)%nat -> (b < n)%nat ->
       ((a < i \/ b < i) \/ (a = i /\ b < j) \/ (b = i /\ a < j))%nat -> D a b = G a b).
    destruct (for_range_ok P2 (fun j Sig =>
      let h k := s j k - s i k in
      let Sig := mset Sig i j (exp (- (12 / 100) * ndot d h h)) in
      Ok (mset Sig j i (Sig i j))) (n - i) i D) as (D' & E' & HD').
    + intros a b Ha Hb Hc. apply HD; [exact Ha|exact Hb|lia].
    + intros j M Hj HM. cbv zeta. eexists. split; [reflexivity|].
      intros a b Ha Hb Hc. rewrite !mset_get, !Nat.eqb_refl. cbn [andb].
      change (exp (- (12 / 100) * ndot d (fun k => s j k - s i k) (fun k => s j k - s i k))) with (G i j).
      destruct (Nat.eqb_spec a j) as [Ea|Ea], (Nat.eqb_spec b i) as [Eb|Eb]; cbn [andb].
      * subst. apply gauss_sym with (n := n); lia.
      * destruct (Nat.eqb_spec a i) as [Fa|Fa], (Nat.eqb_spec b j) as [Fb|Fb]; cbn [andb]; subst; try reflexivity; apply HM; lia.
      * destruct (Nat.eqb_spec a i) as [Fa|Fa], (Nat.eqb_spec b j) as [Fb|Fb]; cbn [andb]; subst; try reflexivity; apply HM; lia.
      * destruct (Nat.eqb_spec a i) as [Fa|Fa], (Nat.eqb_spec b j) as [Fb|Fb]; cbn [andb]; subst; try reflexivity; apply HM; lia.
    + exists D'. split; [exact E'|]. intros a b Ha Hb Hc. apply HD'; [exact Ha|exact Hb|]. lia.
  - exists D. split; [exact E|]. intros a b Ha Hb. apply HD; [exact Ha|exact Hb|lia].
Qed.

(** Gram sums y_0 y_0' + ... + y_{N-1} y_{N-1}' *)
Lemma gram_form n N (y : nat -> nat -> R) u :
  bf n (fun i j => rsum N (fun k => y k i * y k j)) u u = rsum N (fun k => dot n u (y k) * dot n u (y k)).
Proof.
  rewrite bf_sums.
  rewrite (rsum_ext n _ (fun i => rsum N (fun k => u i * y k i * dot n u (y k)))).
  - rewrite rsum_exchange. apply rsum_ext; intros k _. rewrite rsum_scal_r. unfold dot at 2. ring.
  - intros i _. rewrite (rsum_ext n _ (fun j => rsum N (fun k => u i * y k i * (u j * y k j)))).
    + rewrite rsum_exchange. apply rsum_ext; intros k _. rewrite rsum_scal_l. reflexivity.
    + intros j _. rewrite <- rsum_scal_l, <- rsum_scal_r. apply rsum_ext; intros; ring.
Qed.
Lemma for_range_sum n (f : nat -> nat -> nat -> R) N : forall lo (Y0 : nat -> nat -> R),
  exists Y, for_range N lo (fun k Y => Ok (fun i j => Y i j + f k i j)) Y0 = Ok Y /\
    forall i j, (i < n)%nat -> (j < n)%nat -> Y i j = Y0 i j + rsum N (fun k => f (lo + k)%nat i j).
Proof.
  induction N as [|N IH]; intros lo Y0; cbn [for_range bind].
  - exists Y0. split; [reflexivity|]. intros; cbn; ring.
  - destruct (IH (S lo) (fun i j => Y0 i j + f lo i j)) as [Y [E HY]]. exists Y. split; [exact E|].
    intros i j Hi Hj. rewrite HY by assumption. rewrite rsum_shift, Nat.add_0_r.
    rewrite (rsum_ext N (fun k => f (S lo + k)%nat i j) (fun k => f (lo + S k)%nat i j)).
    + ring.
    + intros k _. f_equal. lia.
Qed.

Lemma create_2d_isotropic_ok chol rnd noise n d s N : np_cholesky_spec chol -> distinct_sites n d s -> (0 < N)%Z ->
  exists Y y, create_2d_isotropic chol rnd noise n d s N = Ok Y /\
    forall i j, (i < n)%nat -> (j < n)%nat -> Y i j = rsum (Z.to_nat N) (fun k => y k i * y k j) / IZR N.
Proof.
  intros Hc Hd HN. unfold create_2d_isotropic.
  destruct (isotropic_kernel_ok n d s) as [Sig [E HS]]. rewrite E. cbn [bind].
  assert (HG := gauss_pd n d s (12 / 100) ltac:(lra) Hd).
  assert (Hsym : sym n Sig).
  { intros i j Hi Hj. rewrite !HS by assumption. apply gauss_sym with (n := n); assumption. }
  assert (Hpd : pd n Sig).
  { intros v Hv. rewrite (bf_mext n Sig _ v v HS). apply HG, Hv. }
  destruct (proj1 (Hc n Sig Hsym) Hpd) as [Am [EA _]]. rewrite EA. cbn [bind]. cbv zeta.
  set (y := fun k i => ndot n (Am i) (fun i0 => 2 * rnd k i0) + 1 / 100000 * noise k i).
  destruct (for_range_sum n (fun k i j => y k i * y k j) (Z.to_nat N) 0 (fun _ _ => 0)) as [Y [EY HY]].
  unfold y in EY at 1 2. rewrite EY. cbn [bind].
  destruct (Z.eqb_spec N 0) as [|_]; [lia|].
  exists (fun i j => Y i j / IZR N), y. split; [reflexivity|].
  intros i j Hi Hj. rewrite HY by assumption. f_equal. rewrite Rplus_0_l. apply rsum_ext; intros; reflexivity.
Qed.

(** fewer than n vectors of dimension n have a common non-zero orthogonal vector *)
Lemma orthogonal N : forall n (y : nat -> nat -> R), (N < n)%nat ->
  exists u, nonzero n u /\ forall k, (k < N)%nat -> dot n u (y k) = 0.
Proof.
  induction N as [|N IH]; intros n y Hn.
  - exists (fun _ => 1). split; [exists 0%nat; split; [lia|lra]|]. intros; lia.
  - destruct n as [|n]; [lia|].
    assert (Hdec : (forall k, (k < S N)%nat -> y k n = 0) \/ exists k, (k < S N)%nat /\ y k n <> 0).
    { clear. induction (S N) as [|m IH].
      - left; intros; lia.
      - destruct IH as [IH|[k [Hk H]]]; [|right; exists k; split; [lia|exact H]].
        destruct (Req_dec (y m n) 0) as [E|E]; [left|right; exists m; split; [lia|exact E]].
        intros k Hk. destruct (Nat.eq_dec k m) as [->|]; [exact E|apply IH; lia]. }
    destruct Hdec as [Hz|[p [Hp Hpn]]].
    + exists (fun i => if Nat.eqb n i then 1 else 0). split.
      * exists n. split; [lia|]. rewrite Nat.eqb_refl. lra.
      * intros k Hk. rewrite dot_unit_l by lia. apply Hz, Hk.
    + set (sk := fun k => if (k <? p)%nat then k else S k).
      set (y' := fun k i => y (sk k) i - y (sk k) n / y p n * y p i).
      destruct (IH n y' ltac:(lia)) as [u' [[i0 [Hi0 Hu]] Ho]].
      set (u := fun i => if Nat.eqb i n then - dot n u' (y p) / y p n else u' i).
      assert (Hd : forall w, dot (S n) u w = dot n u' w - dot n u' (y p) / y p n * w n).
      { intros w. unfold dot at 1. cbn [rsum]. unfold u at 2. rewrite Nat.eqb_refl.
        rewrite (rsum_ext n _ (fun k => u' k * w k)).
        - unfold dot, Rdiv. ring.
        - intros k Hk. unfold u. destruct (Nat.eqb_spec k n); [lia|reflexivity]. }
      assert (Hup : dot (S n) u (y p) = 0) by (rewrite Hd; field; exact Hpn).
      exists u. split.
      * exists i0. split; [lia|]. unfold u. destruct (Nat.eqb_spec i0 n); [lia|exact Hu].
      * intros k Hk. destruct (Nat.eq_dec k p) as [->|Hne]; [exact Hup|].
        set (k' := if (k <? p)%nat then k else (k - 1)%nat).
        assert (Hk' : (k' < N)%nat) by (unfold k'; destruct (Nat.ltb_spec k p); lia).
        assert (Hs : sk k' = k).
        { unfold sk, k'. destruct (Nat.ltb_spec k p); [destruct (Nat.ltb_spec k p); lia|].
          destruct (Nat.ltb_spec (k - 1) p); lia. }
        specialize (Ho k' Hk'). unfold y' in Ho. rewrite Hs in Ho.
        rewrite dot_minus_r, dot_scal_r in Ho. rewrite Hd.
        replace (dot n u' (y k)) with (y k n / y p n * dot n u' (y p)) by lra. field. exact Hpn.
Qed.
Lemma gram_singular n N y : (N < n)%nat -> ~ pd n (fun i j => rsum N (fun k => y k i * y k j)).
Proof.
  intros Hn Hp. destruct (orthogonal N n y Hn) as [u [Hu Ho]]. specialize (Hp u Hu).
  rewrite gram_form in Hp. rewrite (rsum_0 N) in Hp; [lra|].
  intros k Hk. rewrite Ho by exact Hk. ring.
Qed.
Lemma gram_psd n N y : psd n (fun i j => rsum N (fun k => y k i * y k j)).
Proof. intros u. rewrite gram_form. apply rsum_nonneg. intros. apply Rle_0_sqr. Qed.
