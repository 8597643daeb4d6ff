(** Theorems about the B-spline fit of corr_bspline_oracle.py (C110-C112) *)
From Coq Require Import Reals Lra Lia Psatz.
From Verif Require Import Base S_LinAlg P_LinAlg S_Misc S_Lmi S_Bspline M_Misc P_Misc M_Bspline P_Bspline T_Misc.
Local Open Scope R_scope.

(** ** C110 evaluation of a B-spline *)
Theorem C110_interval_unique : forall (t : nat -> R) (n k : nat) (x : R) (prev prev' : nat),
  (k < n)%nat -> increasing (n + k + 1) t -> find_interval t n k prev x = find_interval t n k prev' x.
Proof. intros t n k x p p' Hk Ht. apply (is_interval_unique t n k x); [exact Ht|apply find_interval_spec, Hk..]. Qed.
Print Assumptions C110_interval_unique.

Theorem C110_eval_is_spline : forall (t : nat -> R) (n k : nat) (c : nat -> R) (prev : nat) (x : R),
  (k < n)%nat -> increasing (n + k + 1) t -> t k <= x < t n ->
  bspline_eval t n k c prev x = Ok (spline t k n c x).
Proof.
  intros t n k c prev x Hk Ht Hx. destruct (bspline_eval_ok t n k c prev x Hk Ht) as (l & [Hl [L1 L2]] & E). rewrite E. f_equal.
  symmetry. apply spline_pb; [exact Ht|exact Hl|]. split.
  - destruct L1 as [->|L1]; lra.
  - destruct L2 as [<-|L2]; lra.
Qed.
Print Assumptions C110_eval_is_spline.

(** equal coefficients give that constant everywhere, outside of the base interval too; inside it
    the value lies between the bounds of the coefficients *)
Theorem C110_unity_and_bounds : forall (t : nat -> R) (n k : nat) (c : nat -> R) (prev : nat) (x a b : R),
  (k < n)%nat -> increasing (n + k + 1) t -> (forall i, (i < n)%nat -> a <= c i <= b) ->
  exists v, bspline_eval t n k c prev x = Ok v /\ (a = b -> v = a) /\ (t k <= x <= t n -> a <= v <= b).
Proof.
  intros t n k c prev x a b Hk Ht Hc. destruct (bspline_eval_ok t n k c prev x Hk Ht) as (l & [Hl [L1 L2]] & E).
  eexists. split; [exact E|].
  assert (S1 := pb_sum t l x (n + k + 1) Ht k ltac:(lia) ltac:(lia)).
  assert (Hr : forall y, rsum (k + 1) (fun i => y * pb t l x k i) = y) by (intros y; rewrite rsum_scal_l, S1; ring).
  split.
  - intros <-. rewrite <- (Hr a). apply rsum_ext. intros i Hi. specialize (Hc (l + i - k)%nat ltac:(lia)).
    replace (c (l + i - k)%nat) with a by lra. reflexivity.
  - intros Hx. assert (Hx' : t l <= x <= t (S l)).
    { split; [destruct L1 as [->|L1]; lra|destruct L2 as [<-|L2]; lra]. }
    assert (N := pb_nonneg t l x (n + k + 1) Ht Hx').
    split; [rewrite <- (Hr a)|rewrite <- (Hr b)]; apply rsum_le; intros i Hi;
      specialize (Hc (l + i - k)%nat ltac:(lia)); specialize (N k i ltac:(lia) ltac:(lia) ltac:(lia)); nra.
Qed.
Print Assumptions C110_unity_and_bounds.

Example C110_ex : (2 < 4)%nat /\ increasing (4 + 2 + 1) INR /\ INR 2 <= 5 / 2 < INR 4 /\
  spline INR 2 4 (fun i => INR i) (5 / 2) = 1.
Proof.
  split; [lia|]. split; [intros i _; apply lt_INR; lia|]. split; [cbn; lra|].
  unfold spline. cbn [rsum basis Nat.add]. rewrite !S_INR. change (INR 0) with 0.
  repeat match goal with |- context [Rle_dec ?a ?b] => destruct (Rle_dec a b); try (exfalso; lra) end;
  repeat match goal with |- context [Rlt_dec ?a ?b] => destruct (Rlt_dec a b); try (exfalso; lra) end. field.
Qed.

(** ** C111 generate_bspline_info and corr_bspline *)
Lemma fill_ok n (g : nat -> nat -> res R) (v : nat -> nat -> R) : (forall a b, (a < n)%nat -> (b < n)%nat -> g a b = Ok (v a b)) ->
  exists S0, for_range n 0 (fun a S0 => for_range n 0 (fun b S0 => w <- g a b ;; Ok (mset S0 a b w)) S0) (fun _ _ => 0) = Ok S0 /\
    forall a b, (a < n)%nat -> (b < n)%nat -> S0 a b = v a b.
Proof.
  intros Hg.
  destruct (for_range_ok (fun (i : nat) (M : nat -> nat -> R) => forall a b, (a < i)%nat -> (b < n)%nat -> M a b = v a b)
    (fun a S0 => for_range n 0 (fun b S0 => w <- g a b ;; Ok (mset S0 a b w)) S0) n 0 (fun _ _ => 0)) as (S0 & E & H).
  - intros a b Ha; lia.
  - intros i M Hi HM.
    destruct (for_range_ok (fun (j : nat) (N : nat -> nat -> R) => forall a b, (a < i \/ a = i /\ b < j)%nat -> (b < n)%nat -> N a b = v a b)
      (fun b S0 => w <- g i b ;; Ok (mset S0 i b w)) n 0 M) as (N & E & H).
    + intros a b Ha Hb. apply HM; lia.
    + intros j N Hj HN. rewrite Hg by lia. cbn [bind]. eexists. split; [reflexivity|]. intros a b Ha Hb.
      unfold mset. destruct (Nat.eqb_spec a i) as [->|Na], (Nat.eqb_spec b j) as [->|Nb]; cbn [andb]; try reflexivity; apply HN; lia.
    + exists N. split; [exact E|]. intros a b Ha Hb. apply H; lia.
  - exists S0. split; [exact E|]. intros a b Ha Hb. apply H; [lia|exact Hb].
Qed.

Lemma eval_combine h n c x vals : 0 < h -> (3 <= n)%nat ->
  (forall i, (i < n)%nat -> bspline_eval (unif h) n 2 (vset (fun _ => 0) i 1) 2 x = Ok (vals i)) ->
  bspline_eval (unif h) n 2 c 2 x = Ok (rsum n (fun i => vals i * c i)).
Proof.
  intros Hh Hn Hv. assert (Ht := unif_increasing h (n + 2 + 1) Hh).
  destruct (bspline_eval_ok (unif h) n 2 c 2 x ltac:(lia) Ht) as (l & Hl & E). rewrite E. f_equal.
  rewrite (rsum_ext n _ (fun i => rsum (2 + 1) (fun a => (if Nat.eqb i (l + a - 2) then c i else 0) * pb (unif h) l x 2 a))).
  - rewrite rsum_exchange. apply rsum_ext. intros a Ha.
    rewrite (rsum_single n (l + a - 2)).
    + rewrite Nat.eqb_refl. reflexivity.
    + destruct Hl; lia.
    + intros i Hi Ne. destruct (Nat.eqb_spec i (l + a - 2)); [lia|ring].
  - intros i Hi. specialize (Hv i Hi).
    destruct (bspline_eval_ok (unif h) n 2 (vset (fun _ => 0) i 1) 2 x ltac:(lia) Ht) as (l' & Hl' & E').
    rewrite (is_interval_unique _ _ _ _ _ _ Ht Hl' Hl) in E'. rewrite E' in Hv.
    replace (vals i) with (rsum (2 + 1) (fun a => vset (fun _ => 0) i 1 (l + a - 2)%nat * pb (unif h) l x 2 a)) by congruence.
    rewrite <- rsum_scal_r. apply rsum_ext. intros a Ha. unfold vset. rewrite (Nat.eqb_sym i).
    destruct (Nat.eqb (l + a - 2) i); ring.
Qed.

Lemma init_unif m h : 0 < h -> bspline_init (m + 2 + 1) m 2 (unif h) = if (m <? 3)%nat then Raise ValueError else Ok tt.
Proof.
  intros Hh. unfold bspline_init. replace (m + 2 + 1 <? 2 * 2 + 2)%nat with (m <? 3)%nat.
  2:{ destruct (Nat.ltb_spec m 3), (Nat.ltb_spec (m + 2 + 1) (2 * 2 + 2)); try reflexivity; lia. }
  destruct (Nat.ltb_spec m 3) as [|H3]; [reflexivity|].
  replace (existsb _ _) with false.
  2:{ symmetry. apply Bool.not_true_is_false. intros E. apply existsb_exists in E as (i & _ & E). apply Rltb_true in E.
      unfold unif in E. rewrite S_INR in E. nra. }
  replace (forallb _ _) with false.
  2:{ symmetry. apply Bool.not_true_is_false. intros E. rewrite forallb_forall in E.
      specialize (E 3%nat ltac:(apply in_seq; lia)). apply Reqb_true in E. unfold unif in E. cbn in E. nra. }
  replace (m <? m + 2 + 1 - 2 - 1)%nat with false; [reflexivity|]. symmetry. apply Nat.ltb_ge. lia.
Qed.
Lemma init_flat m t : (forall i, t i = 0) -> bspline_init (m + 2 + 1) m 2 t = Raise ValueError.
Proof.
  intros Ht. unfold bspline_init. destruct (_ <? _)%nat; [reflexivity|]. destruct (existsb _ _); [reflexivity|].
  replace (forallb _ _) with true; [reflexivity|]. symmetry. apply forallb_forall. intros i _. apply Reqb_true. rewrite !Ht. reflexivity.
Qed.

(** distance between the first and the last site, and the distance between two knots *)
Definition span (n d : nat) (s : nat -> nat -> R) : R := edist d (s (n - 1)%nat) (s 0%nat).
Definition knot_step (n d : nat) (s : nat -> nat -> R) (m : nat) : R := span n d s * (12 / 10) / INR (m + 2).

Theorem C111_generate_bspline_info : forall (n d : nat) (s : nat -> nat -> R) (m : nat),
  (1 <= n)%nat -> (3 <= m)%nat -> 0 < span n d s ->
  exists Sig t, generate_bspline_info n d s m = Ok (Sig, t, 2%nat) /\
    (forall i, t i = INR i * knot_step n d s m) /\ t (m + 2)%nat = 12 / 10 * span n d s /\
    length Sig = m /\ all_sym n Sig /\
    (forall i j, (i < n)%nat -> (j < n)%nat -> lin_mat Sig (fun _ => 1) i j = 1) /\
    (forall k i j, (k < m)%nat -> (i < n)%nat -> (j < n)%nat -> t 2%nat <= edist d (s i) (s j) < t m ->
       nth k Sig (fun _ _ => 0) i j = basis t 2 k (edist d (s i) (s j))).
Proof.
  intros n d s m Hn Hm Hs. set (h := knot_step n d s m).
  assert (Hm2 : 0 < INR (m + 2)) by (apply lt_0_INR; lia).
  assert (Hh : 0 < h) by (unfold h, knot_step; apply Rdiv_lt_0_compat; lra).
  assert (Ht := unif_increasing h (m + 2 + 1) Hh).
  unfold generate_bspline_info. destruct n as [|n1]; [lia|]. cbv zeta.
  assert (Hnn : 0 <= ndot d (fun i => s n1 i - s 0%nat i) (fun i => s n1 i - s 0%nat i)) by (apply rsum_nonneg; intros; apply Rle_0_sqr).
  rewrite rsqrt_ok by exact Hnn. cbn [bind].
  change (sqrt (ndot d (fun i => s n1 i - s 0%nat i) (fun i => s n1 i - s 0%nat i))) with (edist d (s n1) (s 0%nat)).
  assert (Esp : edist d (s n1) (s 0%nat) = span (S n1) d s) by (unfold span; do 2 f_equal; lia). rewrite Esp.
  assert (Et : linspace0 (span (S n1) d s * (12 / 10)) (m + 2 + 1) = unif h).
  { unfold linspace0, unif, h, knot_step. replace (m + 2 + 1 - 1)%nat with (m + 2)%nat by lia. reflexivity. }
  rewrite Et.
  destruct (for_range_ok (fun _ (_ : unit) => True) (fun _ (_ : unit) => bspline_init (m + 2 + 1) m 2 (unif h)) m 0 tt) as ([] & E1 & _); [trivial| |].
  { intros i [] _ _. exists tt. rewrite (init_unif m h Hh). destruct (Nat.ltb_spec m 3); [lia|]. auto. }
  rewrite E1. cbn [bind].
  destruct (C60_distance_matrix (S n1) d s) as (D & ED & HsD & HD). rewrite ED. cbn [bind].
  set (V := fun i a b => match bspline_eval (unif h) m 2 (vset (fun _ => 0) i 1) 2 (D a b) with Ok v => v | Raise _ => 0 end).
  assert (HV : forall i a b, bspline_eval (unif h) m 2 (vset (fun _ => 0) i 1) 2 (D a b) = Ok (V i a b)).
  { intros i a b. unfold V. destruct (bspline_eval_ok (unif h) m 2 (vset (fun _ => 0) i 1) 2 (D a b) ltac:(lia) Ht) as (l & _ & E). rewrite E. reflexivity. }
  match goal with |- context [for_range m 0 ?body []] =>
    destruct (for_range_ok (fun i (Sig : list (nat -> nat -> R)) => length Sig = i /\ forall k a b, (k < i)%nat -> (a < S n1)%nat -> (b < S n1)%nat ->
       nth k Sig (fun _ _ => 0) a b = V k a b) body m 0 []) as (Sig & E2 & HL & HSig) end.
  - split; [reflexivity|]. intros; lia.
  - intros i Sig _ [HL HSig].
    destruct (fill_ok (S n1) (fun a b => bspline_eval (unif h) m 2 (vset (fun _ => 0) i 1) 2 (D a b)) (V i)) as (S0 & E0 & H0); [intros; apply HV|].
    rewrite E0. cbn [bind]. eexists. split; [reflexivity|]. rewrite app_length. split; [cbn; lia|].
    intros k a b Hk Ha Hb. destruct (Nat.eq_dec k i) as [->|Ne].
    + rewrite app_nth2 by lia. rewrite HL, Nat.sub_diag. apply H0; assumption.
    + rewrite app_nth1 by lia. apply HSig; [lia|assumption..].
  - rewrite E2. cbn [bind]. rewrite Nat.add_0_l in HL, HSig. exists Sig, (unif h). split; [reflexivity|]. split; [reflexivity|]. split.
    { unfold unif, h, knot_step. field. lra. }
    split; [exact HL|]. split; [|split].
    + intros M HM. apply (In_nth _ _ (fun _ _ => 0)) in HM as (k & Hk & <-). rewrite HL in Hk. intros i j Hi Hj.
      rewrite !HSig by assumption. unfold V. rewrite (HsD i j Hi Hj). reflexivity.
    + intros i j Hi Hj. unfold lin_mat. rewrite HL.
      rewrite (rsum_ext m _ (fun k => V k i j * 1)) by (intros k Hk; rewrite HSig by assumption; reflexivity).
      assert (C := eval_combine h m (fun _ => 1) (D i j) (fun k => V k i j) Hh Hm ltac:(intros; apply HV)).
      destruct (C110_unity_and_bounds (unif h) m 2 (fun _ => 1) 2 (D i j) 1 1 ltac:(lia) Ht ltac:(intros; lra)) as (v & Ev & Hv & _).
      rewrite C in Ev. injection Ev as Ev. rewrite Ev. apply Hv; reflexivity.
    + intros k i j Hk Hi Hj Hr. rewrite HSig by assumption. destruct (HD i j Hi Hj) as [HDij _]. rewrite <- HDij in *.
      assert (X := C110_eval_is_spline (unif h) m 2 (vset (fun _ => 0) k 1) 2 (D i j) ltac:(lia) Ht Hr). rewrite HV in X. injection X as ->.
      unfold spline. rewrite (rsum_single m k).
      * unfold vset. rewrite Nat.eqb_refl. ring.
      * exact Hk.
      * intros i' _ Ne. unfold vset. destruct (Nat.eqb_spec i' k); [contradiction|ring].
Qed.
Print Assumptions C111_generate_bspline_info.

(** too few coefficients, or first and last site equal *)
Theorem C111_bspline_raises : forall (I : Type) (n d : nat) (s : nat -> nat -> R) (m : nat)
    (core : list (nat -> nat -> R) -> res ((nat -> R) * I)),
  (1 <= n)%nat -> (1 <= m < 3)%nat \/ (1 <= m)%nat /\ span n d s = 0 ->
  corr_bspline n d s m core = Raise ValueError.
Proof.
  intros I n d s m core Hn Hc. unfold corr_bspline, generate_bspline_info. destruct n as [|n1]; [lia|]. cbv zeta.
  assert (Hnn : 0 <= ndot d (fun i => s n1 i - s 0%nat i) (fun i => s n1 i - s 0%nat i)) by (apply rsum_nonneg; intros; apply Rle_0_sqr).
  rewrite rsqrt_ok by exact Hnn. cbn [bind].
  change (sqrt (ndot d (fun i => s n1 i - s 0%nat i) (fun i => s n1 i - s 0%nat i))) with (edist d (s n1) (s 0%nat)).
  assert (Esp : edist d (s n1) (s 0%nat) = span (S n1) d s) by (unfold span; do 2 f_equal; lia). rewrite Esp.
  destruct m as [|m]; [lia|]. cbn [for_range].
  replace (bspline_init _ _ _ _) with (Raise ValueError : res unit); [reflexivity|]. symmetry.
  destruct (Rle_lt_or_eq_dec 0 (span (S n1) d s) (edist_nonneg _ _ _)) as [P|Z].
  - destruct Hc as [Hc|[_ Hc]]; [|lra].
    assert (Hm2 : 0 < INR (S m + 2)) by (apply lt_0_INR; lia).
    set (h := knot_step (S n1) d s (S m)).
    assert (Hh : 0 < h) by (unfold h, knot_step; apply Rdiv_lt_0_compat; lra).
    replace (linspace0 _ _) with (unif h).
    + rewrite (init_unif (S m) h Hh). destruct (Nat.ltb_spec (S m) 3); [reflexivity|lia].
    + unfold linspace0, unif, h, knot_step. replace (S m + 2 + 1 - 1)%nat with (S m + 2)%nat by lia. reflexivity.
  - apply init_flat. intros i. unfold linspace0. rewrite <- Z. unfold Rdiv. ring.
Qed.
Print Assumptions C111_bspline_raises.

(** the function returned reproduces the matrix that was fitted *)
Theorem C111_corr_bspline_reproduces : forall (I : Type) (n d : nat) (s : nat -> nat -> R) (m : nat)
    (core : list (nat -> nat -> R) -> res ((nat -> R) * I)) F info,
  (1 <= n)%nat -> (1 <= m)%nat -> corr_bspline n d s m core = Ok (F, info) ->
  exists Sig t c f, generate_bspline_info n d s m = Ok (Sig, t, 2%nat) /\ core Sig = Ok (c, info) /\
    (forall x, F x = Ok (f x)) /\
    forall i j, (i < n)%nat -> (j < n)%nat -> f (edist d (s i) (s j)) = lin_mat Sig c i j.
Proof.
  intros I n d s m core F info Hn Hm H.
  destruct (le_lt_dec 3 m) as [H3|H3]; [|rewrite C111_bspline_raises in H; [discriminate|exact Hn|lia]].
  destruct (Rle_lt_or_eq_dec 0 (span n d s) (edist_nonneg _ _ _)) as [P|Z]; [|rewrite C111_bspline_raises in H; [discriminate|exact Hn|right; split; [exact Hm|symmetry; exact Z]]].
  unfold corr_bspline in H. apply bind_ok in H as ([[Sig t] k] & EG & H). apply bind_ok in H as ([c info'] & EC & H).
  apply bind_ok in H as (u & _ & H). injection H as <- <-.
  assert (Hm2 : 0 < INR (m + 2)) by (apply lt_0_INR; lia).
  set (h := knot_step n d s m). assert (Hh : 0 < h) by (unfold h, knot_step; apply Rdiv_lt_0_compat; lra).
  (* the matrices, by the same computation *)
  assert (EG' := EG). unfold generate_bspline_info in EG'. destruct n as [|n1]; [lia|]. cbv zeta in EG'.
  assert (Hnn : 0 <= ndot d (fun i => s n1 i - s 0%nat i) (fun i => s n1 i - s 0%nat i)) by (apply rsum_nonneg; intros; apply Rle_0_sqr).
  rewrite rsqrt_ok in EG' by exact Hnn. cbn [bind] in EG'.
  change (sqrt (ndot d (fun i => s n1 i - s 0%nat i) (fun i => s n1 i - s 0%nat i))) with (edist d (s n1) (s 0%nat)) in EG'.
  assert (Esp : edist d (s n1) (s 0%nat) = span (S n1) d s) by (unfold span; do 2 f_equal; lia). rewrite Esp in EG'.
  assert (Et : linspace0 (span (S n1) d s * (12 / 10)) (m + 2 + 1) = unif h).
  { unfold linspace0, unif, h, knot_step. replace (m + 2 + 1 - 1)%nat with (m + 2)%nat by lia. reflexivity. }
  rewrite Et in EG'. apply bind_ok in EG' as (u1 & _ & EG'). apply bind_ok in EG' as (D & ED & EG'). apply bind_ok in EG' as (Sig' & ES & EG').
  injection EG' as -> <- <-.
  destruct (C60_distance_matrix (S n1) d s) as (D' & ED' & _ & HD). rewrite ED in ED'. injection ED' as <-.
  destruct (eval_unif h m c Hh H3) as (f & Hf & _).
  exists Sig, (unif h), c, f. split; [exact EG|]. split; [exact EC|]. split; [intros x; apply Hf|].
  intros i j Hi Hj. destruct (HD i j Hi Hj) as [<- _].
  assert (Ht := unif_increasing h (m + 2 + 1) Hh).
  apply (for_range_inv (fun q (Sig : list (nat -> nat -> R)) => length Sig = q /\ forall k, (k < q)%nat ->
     bspline_eval (unif h) m 2 (vset (fun _ => 0) k 1) 2 (D i j) = Ok (nth k Sig (fun _ _ => 0) i j))) in ES.
  - destruct ES as [HL HS]. rewrite Nat.add_0_l in HL, HS.
    assert (C := eval_combine h m c (D i j) (fun k => nth k Sig (fun _ _ => 0) i j) Hh H3 HS). rewrite Hf in C. injection C as ->.
    unfold lin_mat. rewrite HL. reflexivity.
  - split; [reflexivity|]. intros; lia.
  - intros q Sg Sg' Hq [HL HS] HB. apply bind_ok in HB as (S0 & E0 & HB). injection HB as <-.
    rewrite app_length. split; [cbn; lia|]. intros k Hk. destruct (Nat.eq_dec k q) as [->|Ne].
    + rewrite app_nth2 by lia. rewrite HL, Nat.sub_diag. cbn [nth].
      destruct (eval_unif h m (vset (fun _ => 0) q 1) Hh H3) as (g & Hg & _).
      destruct (fill_ok (S n1) (fun a b => bspline_eval (unif h) m 2 (vset (fun _ => 0) q 1) 2 (D a b)) (fun a b => g (D a b))) as (S1 & E1 & H1); [intros; apply Hg|].
      rewrite E1 in E0. injection E0 as <-. rewrite H1 by assumption. apply Hg.
    + rewrite app_nth1 by lia. apply HS. lia.
Qed.
Print Assumptions C111_corr_bspline_reproduces.

(** two sites at distance 1 on a line *)
Definition two_sites : nat -> nat -> R := fun i _ => INR i.
Lemma two_span : span 2 1 two_sites = 1.
Proof. unfold span, two_sites, edist. cbn. replace (0 + (1 - 0) * (1 - 0)) with 1 by ring. apply sqrt_1. Qed.
Example C111_ex : exists F, corr_bspline 2 1 two_sites 3 (fun _ => Ok ((fun _ => 1), tt)) = Ok (F, tt).
Proof.
  unfold corr_bspline. destruct (C111_generate_bspline_info 2 1 two_sites 3) as (Sig & t & E & Ht & _); [lia|lia|rewrite two_span; lra|].
  rewrite E. cbn [bind]. set (h := knot_step 2 1 two_sites 3) in *.
  assert (Hh : 0 < h) by (unfold h, knot_step; rewrite two_span; cbn; lra).
  assert (X := init_unif 3 h Hh). unfold bspline_init in *.
  replace (existsb (fun i => nltb (t (S i)) (t i)) (seq 0 (3 + 2 + 1 - 1))) with (existsb (fun i => nltb (unif h (S i)) (unif h i)) (seq 0 (3 + 2 + 1 - 1))).
  2:{ cbn [seq existsb Nat.sub Nat.add]. rewrite !Ht. reflexivity. }
  replace (forallb (fun i => neqb (t i) (t 2%nat)) (seq 2 (3 + 2 + 1 - 2 * 2))) with (forallb (fun i => neqb (unif h i) (unif h 2)) (seq 2 (3 + 2 + 1 - 2 * 2))).
  2:{ cbn [seq forallb Nat.sub Nat.add Nat.mul]. rewrite !Ht. reflexivity. }
  rewrite X. cbn. eexists. reflexivity.
Qed.

(** ** C112 is the fitted function non-increasing? *)
Lemma corr_bspline_unif I n d s m core (F : R -> res R) (info : I) c Sig t : (1 <= n)%nat -> (1 <= m)%nat ->
  corr_bspline n d s m core = Ok (F, info) -> generate_bspline_info n d s m = Ok (Sig, t, 2%nat) -> core Sig = Ok (c, info) ->
  (3 <= m)%nat /\ 0 < knot_step n d s m /\ F = bspline_eval (unif (knot_step n d s m)) m 2 c 2.
Proof.
  intros Hn Hm H EG EC.
  destruct (le_lt_dec 3 m) as [H3|H3]; [|rewrite C111_bspline_raises in H; [discriminate|exact Hn|lia]].
  destruct (Rle_lt_or_eq_dec 0 (span n d s) (edist_nonneg _ _ _)) as [P|Z]; [|rewrite C111_bspline_raises in H; [discriminate|exact Hn|right; split; [exact Hm|symmetry; exact Z]]].
  assert (Hm2 : 0 < INR (m + 2)) by (apply lt_0_INR; lia).
  split; [exact H3|]. split; [unfold knot_step; apply Rdiv_lt_0_compat; lra|].
  unfold corr_bspline in H. rewrite EG in H. cbn [bind] in H. rewrite EC in H. cbn [bind] in H.
  apply bind_ok in H as (u & _ & H). injection H as <-.
  unfold generate_bspline_info in EG. destruct n as [|n1]; [lia|]. cbv zeta in EG.
  apply bind_ok in EG as (dd & Ed & EG). apply bind_ok in EG as (u1 & _ & EG). apply bind_ok in EG as (D & _ & EG).
  apply bind_ok in EG as (Sg & _ & EG). injection EG as _ <-. do 1 f_equal.
  assert (Hnn : 0 <= ndot d (fun i => s n1 i - s 0%nat i) (fun i => s n1 i - s 0%nat i)) by (apply rsum_nonneg; intros; apply Rle_0_sqr).
  rewrite rsqrt_ok in Ed by exact Hnn. injection Ed as <-.
  unfold linspace0, unif, knot_step, span, edist. replace (m + 2 + 1 - 1)%nat with (m + 2)%nat by lia. replace (S n1 - 1)%nat with n1 by lia. reflexivity.
Qed.

(** exactly when it is: between the knots t_2 and t_m, and from distance 0 to the last knot *)
Theorem C112_bspline_monotone_partial : forall (I : Type) (n d : nat) (s : nat -> nat -> R) (m : nat)
    (core : list (nat -> nat -> R) -> res ((nat -> R) * I)) F info Sig t c,
  (1 <= n)%nat -> (1 <= m)%nat -> corr_bspline n d s m core = Ok (F, info) ->
  generate_bspline_info n d s m = Ok (Sig, t, 2%nat) -> core Sig = Ok (c, info) ->
  exists f, (forall x, F x = Ok (f x)) /\
    (non_increasing_on (2 * knot_step n d s m) (INR m * knot_step n d s m) f <-> non_increasing m c) /\
    (non_increasing_on 0 (12 / 10 * span n d s) f <->
       non_increasing m c /\ 2 * (c 1%nat - c 2%nat) <= 3 * (c 0%nat - c 1%nat) /\
       2 * (c (m - 3)%nat - c (m - 2)%nat) <= 3 * (c (m - 2)%nat - c (m - 1)%nat)).
Proof.
  intros I n d s m core F info Sig t c Hn Hm H EG EC.
  destruct (corr_bspline_unif I n d s m core F info c Sig t Hn Hm H EG EC) as (H3 & Hh & ->).
  assert (Hm2 : 0 < INR (m + 2)) by (apply lt_0_INR; lia).
  assert (Eh : 12 / 10 * span n d s = INR (m + 2) * knot_step n d s m) by (unfold knot_step; field; lra).
  rewrite Eh. clear Eh. set (h := knot_step n d s m) in *.
  destruct (eval_unif h m c Hh H3) as (f & Hf & Hq). exists f. split; [intros x; apply Hf|].
  (* pieces of f *)
  assert (P : forall l u, (2 <= l < m)%nat -> (l = 2%nat \/ 0 <= u) -> (S l = m \/ u < 1) -> f ((INR l + u) * h) = q2 c l u).
  { intros l u Hl L1 L2. rewrite (Hq _ l).
    - f_equal. field. lra.
    - split; [lia|]. unfold unif. rewrite S_INR. split; [destruct L1; [left; assumption|right; nra]|destruct L2; [left; assumption|right; nra]]. }
  assert (P1 : forall l u, (2 <= l < m)%nat -> (l = 2%nat \/ 0 <= u) -> (S l = m \/ u <= 1) -> f ((INR l + u) * h) = q2 c l u).
  { intros l u Hl L1 [E|[Hu| ->]]; [apply P; auto|apply P; auto|].
    destruct (Nat.eq_dec (S l) m) as [E|Ne]; [apply P; auto|].
    replace (INR l + 1) with (INR (S l) + 0) by (rewrite S_INR; ring). rewrite (P (S l) 0) by (lia || (right; lra)). symmetry. apply q2_join. lia. }
  assert (N : forall a b, a <= 2 * h -> INR m * h <= b -> non_increasing_on a b f -> non_increasing m c).
  { intros a b Ha Hb Hmon.
    assert (B : forall l, (2 <= l < m)%nat -> slope c l 0 <= 0 /\ slope c l 1 <= 0).
    { intros l Hl. apply q2_dec_nec; [lra|]. intros x y X1 X2 X3. rewrite <- !(P1 l) by (lia || (right; lra)).
      assert (G1 : 2 <= INR l) by (change 2 with (INR 2); apply le_INR; lia).
      assert (G2 : INR l + 1 <= INR m) by (rewrite <- S_INR; apply le_INR; lia).
      apply Hmon; nra. }
    intros i Hi. destruct i as [|i].
    - destruct (B 2%nat ltac:(lia)) as [B0 _]. unfold slope in B0. cbn in B0. lra.
    - destruct (B (S (S i)) ltac:(lia)) as [_ B1]. unfold slope in B1. replace (S (S i) - 1)%nat with (S i) in B1 by lia.
      replace (S (S i) - 2)%nat with i in B1 by lia. lra. }
  split.
  - split.
    + apply N; lra.
    + intros Hc. assert (X := unif_dec h m c f 0 1 Hh H3 Hq Hc ltac:(lra) ltac:(lra)).
      intros x y A1 A2 A3. apply X; lra.
  - assert (Em : INR (m + 2) = INR m + 2) by (rewrite plus_INR; reflexivity). rewrite Em.
    assert (Gm : 3 <= INR m) by (replace 3 with (INR 3) by (cbn; lra); apply le_INR; lia).
    assert (S1 : slope c 2 (-2) = 2 * (c 1%nat - c 2%nat) - 3 * (c 0%nat - c 1%nat)) by (unfold slope; cbn [Nat.sub]; ring).
    assert (S2 : slope c (m - 1) 3 = 2 * (c (m - 3)%nat - c (m - 2)%nat) - 3 * (c (m - 2)%nat - c (m - 1)%nat)).
    { unfold slope. replace (m - 1 - 1)%nat with (m - 2)%nat by lia. replace (m - 1 - 2)%nat with (m - 3)%nat by lia. ring. }
    split.
    + intros Hmon. split; [apply (N 0 ((INR m + 2) * h)); [nra|nra|exact Hmon]|]. split.
      * assert (X : slope c 2 (-2) <= 0 /\ slope c 2 (-1) <= 0).
        { apply q2_dec_nec; [lra|]. intros x y X1 X2 X3. rewrite <- !(P1 2%nat) by (lia || (right; lra) || (left; reflexivity)).
          change (INR 2) with 2. apply Hmon; nra. }
        lra.
      * assert (X : slope c (m - 1) 2 <= 0 /\ slope c (m - 1) 3 <= 0).
        { apply q2_dec_nec; [lra|]. intros x y X1 X2 X3. rewrite <- !(P1 (m - 1)%nat) by (lia || (right; lra) || (left; lia)).
          assert (Em1 : INR (m - 1) = INR m - 1) by (rewrite minus_INR by lia; reflexivity). rewrite Em1. apply Hmon; nra. }
        lra.
    + intros (Hc & C1 & C2). assert (X := unif_dec h m c f (-2) 3 Hh H3 Hq Hc ltac:(lra) ltac:(lra)).
      intros x y A1 A2 A3. apply X; nra.
Qed.
Print Assumptions C112_bspline_monotone_partial.

(** The full statement: for coefficients that satisfy the monotonicity constraint, and a positive
    definite fitted matrix, the returned function is non-increasing from distance 0 to the distance
    of the sites.  It is false. *)
Definition bump_c : nat -> R := fun i => match i with 0%nat => 1 | 1%nat => 17 / 20 | _ => 1 / 2 end.
Lemma corr_bspline_any : forall (c : nat -> R), exists F Sig t,
  corr_bspline 2 1 two_sites 3 (fun _ => Ok (c, tt)) = Ok (F, tt) /\ generate_bspline_info 2 1 two_sites 3 = Ok (Sig, t, 2%nat).
Proof.
  intros c. destruct C111_ex as (F & E). unfold corr_bspline in *. apply bind_ok in E as ([[Sig t] k] & EG & E). rewrite EG. cbn [bind] in *.
  destruct (C111_generate_bspline_info 2 1 two_sites 3) as (Sig' & t' & EG' & _); [lia|lia|rewrite two_span; lra|].
  rewrite EG in EG'. injection EG' as -> -> ->.
  apply bind_ok in E as (u & E & _). rewrite E. cbn [bind]. eexists. exists Sig', t'. split; reflexivity.
Qed.
Theorem C112_bspline_monotone_refuted : exists F Sig t f,
  non_increasing 3 bump_c /\
  generate_bspline_info 2 1 two_sites 3 = Ok (Sig, t, 2%nat) /\ pd 2 (lin_mat Sig bump_c) /\
  corr_bspline 2 1 two_sites 3 (fun _ => Ok (bump_c, tt)) = Ok (F, tt) /\
  (forall x, F x = Ok (f x)) /\ 0 <= 0 < 24 / 100 /\ 24 / 100 <= span 2 1 two_sites /\ f 0 < f (24 / 100).
Proof.
  destruct (corr_bspline_any bump_c) as (F & Sig & t & E & EG). exists F, Sig, t.
  destruct (C111_corr_bspline_reproduces _ 2 1 two_sites 3 _ F tt ltac:(lia) ltac:(lia) E) as (Sig' & t' & c' & f & EG' & EC & Hf & HM).
  rewrite EG in EG'. injection EG' as <- <-. injection EC as <-.
  destruct (corr_bspline_unif _ 2 1 two_sites 3 _ F tt bump_c Sig t ltac:(lia) ltac:(lia) E EG eq_refl) as (_ & Hh & EF).
  set (h := knot_step 2 1 two_sites 3) in *. assert (Eh : h = 24 / 100) by (unfold h, knot_step; rewrite two_span; cbn; field).
  destruct (eval_unif h 3 bump_c Hh ltac:(lia)) as (f' & Hf' & Hq).
  assert (Ef : forall x, f x = q2 bump_c 2 (x / h - 2)).
  { intros x. assert (X := Hf x). rewrite EF, Hf' in X. injection X as <-. assert (Q := Hq x 2%nat). change (INR 2) with 2 in Q. apply Q. split; [lia|]. split; left; reflexivity. }
  exists f. split; [|split; [exact EG|split; [|split; [exact E|split; [exact Hf|rewrite two_span; split; [lra|split; [lra|]]]]]]].
  - intros i Hi. destruct i as [|[|i]]; [cbn; lra|cbn; lra|lia].
  - assert (V0 : f 0 = 33 / 40) by (rewrite Ef, Eh; unfold q2, bump_c; cbn [Nat.sub]; field).
    assert (V1 : f 1 = 47 / 360) by (rewrite Ef, Eh; unfold q2, bump_c; cbn [Nat.sub]; field).
    assert (D0 : forall i, edist 1 (two_sites i) (two_sites i) = 0) by (intros; apply edist_refl).
    assert (D1 : edist 1 (two_sites 1) (two_sites 0) = 1) by apply two_span.
    assert (D2 : edist 1 (two_sites 0) (two_sites 1) = 1) by (rewrite edist_sym; exact D1).
    assert (M00 := HM 0%nat 0%nat ltac:(lia) ltac:(lia)). assert (M01 := HM 0%nat 1%nat ltac:(lia) ltac:(lia)).
    assert (M10 := HM 1%nat 0%nat ltac:(lia) ltac:(lia)). assert (M11 := HM 1%nat 1%nat ltac:(lia) ltac:(lia)).
    rewrite D0, V0 in M00. rewrite D2, V1 in M01. rewrite D1, V1 in M10. rewrite D0, V0 in M11.
    intros v [i [Hi Hv]]. unfold bf, mvr, dot. cbn [rsum]. rewrite <- M00, <- M01, <- M10, <- M11.
    assert (X0 := Rle_0_sqr (v 0%nat)). assert (X1 := Rle_0_sqr (v 1%nat)). assert (X2 := Rle_0_sqr (v 0%nat + v 1%nat)). unfold Rsqr in *.
    destruct i as [|[|i]]; [| |lia]; assert (Y := Rsqr_pos_lt _ Hv); unfold Rsqr in Y; nra.
  - rewrite !Ef, Eh. unfold q2, bump_c. cbn [Nat.sub]. lra.
Qed.
Print Assumptions C112_bspline_monotone_refuted.

(** With a core that passes exactly the m coefficients (mle_corr_core) the constraint does not even
    see the last coefficient: the oracle answers like the unconstrained one, and the function rises
    between two sites. *)
Definition rise_c : nat -> R := fun i => match i with 2%nat => 1 | _ => 0 end.
Theorem C112_mono_oracle2_last_refuted :
  (forall (O T : Type) (basis : O -> (nat -> R) -> T -> res (O * (((nat -> R) * R) * option T))) o t,
     mono2_call basis 3 o rise_c t = basis o rise_c t) /\ ~ non_increasing 3 rise_c /\
  exists F f, corr_bspline 2 1 two_sites 3 (fun _ => Ok (rise_c, tt)) = Ok (F, tt) /\ (forall x, F x = Ok (f x)) /\
    ~ non_increasing_on (2 * knot_step 2 1 two_sites 3) (INR 3 * knot_step 2 1 two_sites 3) f.
Proof.
  assert (NI : ~ non_increasing 3 rise_c) by (intros H; specialize (H 1%nat ltac:(lia)); cbn in H; lra).
  split; [|split; [exact NI|]].
  - intros O T basis o t. unfold mono2_call, mono_oracle. cbn [Nat.sub mono_loop]. cbn.
    replace (Rltb 0 (0 - 0)) with false; [reflexivity|]. symmetry. apply Rltb_false. lra.
  - destruct (corr_bspline_any rise_c) as (F & Sig & t & E & EG).
    destruct (C112_bspline_monotone_partial _ 2 1 two_sites 3 _ F tt Sig t rise_c ltac:(lia) ltac:(lia) E EG eq_refl) as (f & Hf & Hi & _).
    exists F, f. split; [exact E|]. split; [exact Hf|]. rewrite Hi. exact NI.
Qed.
Print Assumptions C112_mono_oracle2_last_refuted.

Example C112_ex : exists F Sig t, corr_bspline 2 1 two_sites 3 (fun _ => Ok ((fun i => 1 - INR i / 4), tt)) = Ok (F, tt) /\
  generate_bspline_info 2 1 two_sites 3 = Ok (Sig, t, 2%nat) /\ non_increasing 3 (fun i => 1 - INR i / 4).
Proof.
  destruct (corr_bspline_any (fun i => 1 - INR i / 4)) as (F & Sig & t & E & EG). exists F, Sig, t. split; [exact E|]. split; [exact EG|].
  intros i Hi. rewrite S_INR. lra.
Qed.
