(** Theorems about the low-discrepancy generators and the generated test problems (C101-C108). *)
From Coq Require Import Reals Lra Lia Znumtheory QArith.
From Coq Require Import SpecFloat Sorted.
From Flocq Require Import IEEE754.BinarySingleNaN.
From Verif Require Import Base S_LinAlg P_LinAlg S_LowDiscr M_Misc M_LowDiscr P_LowDiscr P_Gauss
  M_Float P_Float P_Float2 P_LowDiscrF M_Chol P_Chol T_Chol.
Local Open Scope R_scope.

Local Ltac cl := first [lia | cbn; lia | apply Nat.ltb_lt; vm_compute; reflexivity | vm_compute; split; congruence | vm_compute; congruence].

Local Lemma rr b k v : radical_inverse b k v -> (2 <= b)%Z -> (0 <= k)%Z -> 0 <= v < 1.
Proof. intros; eapply radical_range; eassumption. Qed.
Local Lemma rp b k v : radical_inverse b k v -> (2 <= b)%Z -> (0 < k)%Z -> 0 < v.
Proof. intros; eapply radical_pos; eassumption. Qed.
Local Lemma ri b k k' v : radical_inverse b k v -> radical_inverse b k' v -> (2 <= b)%Z -> (0 <= k)%Z -> (0 <= k')%Z -> k = k'.
Proof. intros; eapply radical_inj; eassumption. Qed.

(** ** C101 vdc *)
Theorem C101_vdc_radical_inverse : forall (b k : Z) (fuel : nat),
  (2 <= b)%Z -> (0 <= k)%Z -> (Z.to_nat (Z.log2 k) < fuel)%nat ->
  exists v : R, vdc fuel k b = Ok v /\ radical_inverse b k v /\ 0 <= v < 1 /\ ((0 < k)%Z -> 0 < v).
Proof.
  intros b k fuel Hb Hk Hf. destruct (vdc_ok_ex b k fuel Hb Hk Hf) as [v [E Hr]].
  exists v. split; [exact E|]. split; [exact Hr|]. split; [eapply radical_range; eassumption|].
  intros Hk'. eapply radical_pos; eassumption.
Qed.
Print Assumptions C101_vdc_radical_inverse.

(** different numbers have different values *)
Theorem C101_vdc_injective : forall (b k k' : Z) (fuel fuel' : nat) (v : R),
  (2 <= b)%Z -> (0 <= k)%Z -> (0 <= k')%Z -> vdc fuel k b = Ok v -> vdc fuel' k' b = Ok v -> k = k'.
Proof.
  intros b k k' f f' v Hb Hk Hk' E E'. apply vdc_radical in E, E'; try assumption.
  eapply radical_inj; eassumption.
Qed.
Print Assumptions C101_vdc_injective.

(** the loop does not terminate on a negative number or, except for 0, in base 1; base 0 raises.
    Over any arithmetic in which no division faults (floats: the divisor is never zero). *)
Theorem C101_vdc_diverges : forall (b k : Z) (fuel : nat),
  ((1 <= b)%Z -> (k < 0)%Z -> vdc (A := R) fuel k b = Raise OutOfFuel) /\
  (k <> 0%Z -> vdc (A := R) fuel k 1 = Raise OutOfFuel) /\
  (k <> 0%Z -> (0 < fuel)%nat -> vdc (A := R) fuel k 0 = Raise FloatFault).
Proof.
  intros b k fuel. unfold vdc.
  assert (Hn : forall b, (1 <= b)%Z -> forall fuel k v d, (k < 0)%Z -> 0 < d -> vdc_loop (A := R) fuel k b v d = Raise OutOfFuel).
  { clear. intros b Hb fuel. induction fuel as [|fuel IH]; intros k v d Hk Hd; cbn [vdc_loop];
      (destruct (Z.eqb_spec k 0) as [|_]; [lia|]); [reflexivity|].
    destruct (Z.eqb_spec b 0) as [|_]; [lia|].
    assert (HB : 0 < IZR b) by (apply IZR_lt; lia).
    assert (Hdb : 0 < d * IZR b) by (apply Rmult_lt_0_compat; assumption).
    change (nmul d (nofZ b)) with (d * IZR b). rewrite rdiv_ok by lra. cbn [bind].
    apply IH; [|exact Hdb]. apply Z.div_lt_upper_bound; lia. }
  split; [|split].
  - intros Hb Hk. apply Hn; [exact Hb|exact Hk|cbn; lra].
  - intros Hk. assert (H1 : forall fuel v d, 0 < d -> vdc_loop (A := R) fuel k 1 v d = Raise OutOfFuel).
    { clear - Hk. intros fuel. induction fuel as [|fuel IH]; intros v d Hd; cbn [vdc_loop];
        (destruct (Z.eqb_spec k 0) as [|_]; [contradiction|]); [reflexivity|].
      cbn [Z.eqb]. change (nmul d (nofZ 1)) with (d * 1). rewrite rdiv_ok by lra. cbn [bind].
      rewrite Z.div_1_r. apply IH. lra. }
    apply H1. cbn; lra.
  - intros Hk Hf. destruct fuel as [|fuel]; [lia|]. cbn [vdc_loop].
    destruct (Z.eqb_spec k 0) as [|_]; [contradiction|]. reflexivity.
Qed.
Print Assumptions C101_vdc_diverges.

(** repeated calls of a vdcorput object, from any counter (as reseed leaves it) *)
Theorem C101_vdcorput_calls : forall (o : vdcorput) (s : Z) (n fuel : nat),
  (2 <= vd_base o)%Z -> (0 <= s)%Z -> (Z.to_nat (Z.log2 (s + Z.of_nat n)) < fuel)%nat ->
  exists o' (vs : list R), calls (vdcorput_call fuel) n (vdcorput_reseed s o) = Ok (o', vs) /\
    vd_base o' = vd_base o /\ vd_count o' = (s + Z.of_nat n)%Z /\ length vs = n /\
    forall i d, (i < n)%nat -> radical_inverse (vd_base o) (s + Z.of_nat i + 1) (nth i vs d).
Proof.
  intros [b c] s n fuel Hb Hs Hf. cbn [vd_base vd_count vdcorput_reseed] in *.
  destruct (vdcorput_calls b s n fuel Hb Hs Hf) as (vs & E & Hl & Hn).
  exists (mkVdc b (s + Z.of_nat n)), vs. cbn. auto.
Qed.
Print Assumptions C101_vdcorput_calls.

(** 7 = 111 in base 2, 11 = 102 in base 3 *)
Example C101_ex : vdc 3 7 2 = Ok (7 # 8)%Q /\ vdc 4 11 3 = Ok (19 # 27)%Q /\
  (Z.to_nat (Z.log2 11) < 4)%nat /\ radical_inverse 3 11 (19 / 27).
Proof.
  split; [vm_compute; reflexivity|]. split; [vm_compute; reflexivity|]. split; [cbn; lia|].
  destruct (C101_vdc_radical_inverse 3 11 4) as (v & E & Hr & _); [lia|lia|cbn; lia|].
  replace (19 / 27) with v; [exact Hr|].
  rewrite (Hr 3%nat) by (cbn; lia). unfold digit. cbn. field.
Qed.

(** ** C102 every block of b^m consecutive values has one in each b^-m interval *)
Theorem C102_vdcorput_stratified : forall (o o' : vdcorput) (s : Z) (m fuel : nat) (vs : list R) (j : Z),
  (2 <= vd_base o)%Z -> (0 <= s)%Z -> (0 <= j < vd_base o ^ Z.of_nat m)%Z ->
  (Z.to_nat (Z.log2 (s + vd_base o ^ Z.of_nat m)) < fuel)%nat ->
  calls (vdcorput_call fuel) (Z.to_nat (vd_base o ^ Z.of_nat m)) (vdcorput_reseed s o) = Ok (o', vs) ->
  exists i, (i < length vs)%nat /\ in_cell (vd_base o ^ Z.of_nat m) j (nth i vs 0) /\
    forall i', (i' < length vs)%nat -> in_cell (vd_base o ^ Z.of_nat m) j (nth i' vs 0) -> i' = i.
Proof.
  intros o o' s m fuel vs j Hb Hs Hj Hf E.
  assert (Hp := bpow_pos (vd_base o) m Hb).
  destruct (C101_vdcorput_calls o s (Z.to_nat (vd_base o ^ Z.of_nat m)) fuel Hb Hs) as (o2 & vs2 & E2 & _ & _ & Hl & Hn).
  { rewrite Z2Nat.id by lia. exact Hf. }
  rewrite E in E2. injection E2 as <- <-.
  set (N := (vd_base o ^ Z.of_nat m)%Z) in *. set (b := vd_base o) in *.
  assert (W : unique_in_window (s + 1) N (fun k => rev b m k = j)).
  { apply (window_residue (s + 1) N (unrev b m j)); [exact Hp|apply unrev_range; assumption|].
    intros k _. split; intros H.
    - assert (H2 : rev b m k = rev b m (unrev b m j)) by (rewrite rev_unrev by assumption; exact H).
      apply rev_inj in H2; [|exact Hb]. fold N in H2. rewrite H2. apply Z.mod_small, unrev_range; assumption.
    - rewrite <- (rev_mod b m k Hb). fold N. rewrite H. apply rev_unrev; assumption. }
  destruct W as (k & Hk & Pk & Hu).
  assert (Hin : forall i, (i < length vs)%nat -> in_cell N j (nth i vs 0) <-> rev b m (s + Z.of_nat i + 1) = j).
  { intros i Hi. rewrite Hl in Hi. assert (K0 : (0 <= s + Z.of_nat i + 1)%Z) by lia.
    assert (C := radical_cell b _ _ m j Hb K0 (Hn i 0 Hi)). fold N in C. rewrite C. split; congruence. }
  exists (Z.to_nat (k - (s + 1))).
  assert (Hi : (Z.to_nat (k - (s + 1)) < length vs)%nat) by lia.
  split; [exact Hi|]. split.
  - apply Hin; [exact Hi|]. replace (s + Z.of_nat (Z.to_nat (k - (s + 1))) + 1)%Z with k by lia. exact Pk.
  - intros i' Hi' C. apply Hin in C; [|exact Hi']. apply Hu in C; lia.
Qed.
Print Assumptions C102_vdcorput_stratified.

Example C102_ex : exists o' (vs : list R),
  calls (vdcorput_call 10) (Z.to_nat (3 ^ Z.of_nat 2)) (vdcorput_reseed 100 (vdcorput_init 3)) = Ok (o', vs) /\
  exists i, (i < length vs)%nat /\ in_cell 9 7 (nth i vs 0).
Proof.
  destruct (C101_vdcorput_calls (vdcorput_init 3) 100 (Z.to_nat (3 ^ Z.of_nat 2)) 10) as (o' & vs & E & _); [cl..|].
  exists o', vs. split; [exact E|].
  destruct (C102_vdcorput_stratified (vdcorput_init 3) o' 100 2 10 vs 7) as (i & Hi & Hc & _); [cl..|exact E|].
  exists i. split; [exact Hi|exact Hc].
Qed.

(** ** C103 Halton points: every box of an elementary grid is hit exactly once *)
(** [axes]: for each coordinate its base, the number of digits m and the index of an interval;
    [parts] is the number of boxes, the product of the b^m *)
Theorem C103_halton_n_stratified : forall (axes : list axis) (s : Z) (fuel : nat),
  Forall a_ok axes -> ForallOrdPairs (fun a a' => rel_prime (a_base a) (a_base a')) axes -> (0 <= s)%Z ->
  (Z.to_nat (Z.log2 (s + parts axes)) < fuel)%nat ->
  exists o o' (pts : list (list R)),
    halton_n_init (Z.of_nat (length axes)) (map a_base axes) = Ok o /\
    calls (halton_n_call fuel) (Z.to_nat (parts axes)) (halton_n_reseed s o) = Ok (o', pts) /\
    length pts = Z.to_nat (parts axes) /\
    exists i, (i < length pts)%nat /\ Forall2 (fun a v => in_cell (a_parts a) (a_idx a) v) axes (nth i pts []) /\
      forall i', (i' < length pts)%nat -> Forall2 (fun a v => in_cell (a_parts a) (a_idx a) v) axes (nth i' pts []) -> i' = i.
Proof.
  intros axes s fuel Hok Hcop Hs Hf.
  set (bs := map a_base axes). set (N := parts axes) in *.
  assert (HN : (0 < N)%Z) by (apply parts_pos, Hok).
  assert (Hb : Forall (fun b => 2 <= b)%Z bs).
  { unfold bs. apply Forall_map. eapply Forall_impl; [|exact Hok]. intros a [H _]. exact H. }
  exists (map vdcorput_init bs).
  destruct (calls_spec (halton_n_call (A := R) fuel) (halton_n_st bs) (fun c vs => Forall2 (fun b v => radical_inverse b (c + 1) v) bs vs) (Z.to_nat N) s)
    as (pts & E & Hl & Hn).
  { intros c Hc. apply halton_n_call_ok; [exact Hb|lia|]. eapply log2_fuel; [|exact Hf]. lia. }
  exists (halton_n_st bs (s + Z.of_nat (Z.to_nat N))), pts. split.
  { unfold halton_n_init. fold bs. assert (Hlb : length bs = length axes) by apply map_length.
    rewrite Hlb, Z.ltb_irrefl, Nat2Z.id, <- Hlb, firstn_all. reflexivity. }
  split.
  { unfold halton_n_reseed. rewrite map_map. unfold halton_n_st in E. exact E. }
  split; [exact Hl|].
  destruct (crt_list axes Hok Hcop) as (r & Hr & Hcrt).
  assert (W := window_residue (s + 1) N r _ HN Hr (fun k _ => Hcrt k)).
  destruct W as (k & Hk & Pk & Hu).
  assert (Hin : forall i, (i < length pts)%nat ->
    (Forall2 (fun a v => in_cell (a_parts a) (a_idx a) v) axes (nth i pts []) <->
     Forall (fun a => rev (a_base a) (snd (fst a)) (s + Z.of_nat i + 1) = a_idx a) axes)).
  { intros i Hi. rewrite Hl in Hi. specialize (Hn i [] Hi).
    assert (Hk0 : (0 <= s + Z.of_nat i + 1)%Z) by lia.
    clear - Hok Hn Hk0. revert Hn. generalize (nth i pts []) as vs. unfold bs.
    induction Hok as [|a l Ha _ IH]; intros vs Hn; cbn [map] in Hn.
    - inversion Hn; subst. split; constructor.
    - inversion Hn as [|? v ? vs' Hv Hvs]; subst. specialize (IH _ Hvs). destruct Ha as [Hb Hj].
      assert (C := radical_cell (a_base a) _ v (snd (fst a)) (a_idx a) Hb Hk0 Hv).
      change (a_base a ^ Z.of_nat (snd (fst a)))%Z with (a_parts a) in C.
      split; intros H; inversion H; subst.
      + constructor; [symmetry; apply C; assumption|apply IH; assumption].
      + constructor; [apply C; symmetry; assumption|apply IH; assumption]. }
  exists (Z.to_nat (k - (s + 1))).
  assert (Hi : (Z.to_nat (k - (s + 1)) < length pts)%nat) by lia.
  split; [exact Hi|]. split.
  - apply Hin; [exact Hi|]. replace (s + Z.of_nat (Z.to_nat (k - (s + 1))) + 1)%Z with k by lia. exact Pk.
  - intros i' Hi' C. apply Hin in C; [|exact Hi']. apply Hu in C; lia.
Qed.
Print Assumptions C103_halton_n_stratified.

(** the two-dimensional class halton produces the same points *)
Theorem C103_halton_is_halton_n : forall (b0 b1 s : Z) (n fuel : nat),
  (2 <= b0)%Z -> (2 <= b1)%Z -> (0 <= s)%Z -> (Z.to_nat (Z.log2 (s + Z.of_nat n)) < fuel)%nat ->
  exists o1 o1' (p1 : list (R * R)) o2 o2' (p2 : list (list R)),
    halton_init [b0; b1] = Ok o1 /\ calls (halton_call fuel) n (halton_reseed s o1) = Ok (o1', p1) /\
    halton_n_init 2 [b0; b1] = Ok o2 /\ calls (halton_n_call fuel) n (halton_n_reseed s o2) = Ok (o2', p2) /\
    length p1 = n /\ map (fun p => [fst p; snd p]) p1 = p2.
Proof.
  intros b0 b1 s n fuel H0 H1 Hs Hf.
  destruct (calls_spec (halton_call (A := R) fuel) (fun c => (mkVdc b0 c, mkVdc b1 c))
     (fun c v => radical_inverse b0 (c + 1) (fst v) /\ radical_inverse b1 (c + 1) (snd v)) n s) as (p1 & E1 & L1 & V1).
  { intros c Hc. apply halton_call_ok; try assumption; [lia|]. eapply log2_fuel; [|exact Hf]; lia. }
  destruct (calls_spec (halton_n_call (A := R) fuel) (halton_n_st [b0; b1]) (fun c vs => Forall2 (fun b v => radical_inverse b (c + 1) v) [b0; b1] vs) n s)
    as (p2 & E2 & L2 & V2).
  { intros c Hc. apply halton_n_call_ok; [auto|lia|]. eapply log2_fuel; [|exact Hf]; lia. }
  exists (vdcorput_init b0, vdcorput_init b1), (mkVdc b0 (s + Z.of_nat n), mkVdc b1 (s + Z.of_nat n)), p1,
    [vdcorput_init b0; vdcorput_init b1], (halton_n_st [b0; b1] (s + Z.of_nat n)), p2.
  split; [reflexivity|]. split; [exact E1|]. split; [reflexivity|]. split; [exact E2|]. split; [exact L1|].
  apply nth_ext with (d := []) (d' := []); [rewrite map_length; congruence|].
  intros i Hi. rewrite map_length, L1 in Hi. rewrite (nth_map2 _ _ _ _ (0, 0)) by congruence.
  specialize (V1 i (0, 0) Hi). specialize (V2 i [] Hi).
  inversion V2 as [|? v0 ? l0 R0 W0 EE1 EE2]; subst. inversion W0 as [|? v1 ? l1 R1 W1]; subst. inversion W1; subst.
  destruct V1 as [A0 A1]. f_equal; [|f_equal].
  - eapply radical_fun; [exact H0| |exact A0|exact R0]. lia.
  - eapply radical_fun; [exact H1| |exact A1|exact R1]. lia.
Qed.
Print Assumptions C103_halton_is_halton_n.

(** bases 2 and 3, a grid of 4 x 9 boxes, the box (3, 5) *)
Example C103_ex : Forall a_ok [(2, 2%nat, 3); (3, 2%nat, 5)]%Z /\
  ForallOrdPairs (fun a a' => rel_prime (a_base a) (a_base a')) [(2, 2%nat, 3); (3, 2%nat, 5)]%Z /\
  parts [(2, 2%nat, 3); (3, 2%nat, 5)]%Z = 36%Z /\ (Z.to_nat (Z.log2 (0 + 36)) < 10)%nat.
Proof.
  split; [|split; [|split; [reflexivity|cbn; lia]]].
  - repeat constructor; cbn; lia.
  - constructor; [|constructor; [constructor|constructor]]. constructor; [|constructor].
    apply Zgcd_1_rel_prime. reflexivity.
Qed.

(** ** C104 points on circles and spheres *)
Theorem C104_circle_on_circle : forall (b c : Z) (fuel : nat),
  (2 <= b)%Z -> (0 <= c)%Z -> (Z.to_nat (Z.log2 (c + 1)) < fuel)%nat ->
  exists x y, circle_call fuel (mkVdc b c) = Ok (mkVdc b (c + 1), (x, y)) /\ x * x + y * y = 1 /\
    exists v, radical_inverse b (c + 1) v /\ x = sin (2 * PI * v) /\ y = cos (2 * PI * v).
Proof.
  intros b c fuel Hb Hc Hf. destruct (vdcorput_call_ok b c fuel Hb Hc Hf) as (v & E & Hr).
  exists (sin (2 * PI * v)), (cos (2 * PI * v)). unfold circle_call. rewrite E. cbn [bind].
  split; [reflexivity|]. split; [apply sin2_cos2|]. exists v; auto.
Qed.
Print Assumptions C104_circle_on_circle.

Theorem C104_sphere_on_sphere : forall (b0 b1 c0 c1 : Z) (fuel : nat),
  (2 <= b0)%Z -> (2 <= b1)%Z -> (0 <= c0)%Z -> (0 <= c1)%Z ->
  (Z.to_nat (Z.log2 (c0 + 1)) < fuel)%nat -> (Z.to_nat (Z.log2 (c1 + 1)) < fuel)%nat ->
  exists x y z, sphere_call fuel (mkVdc b0 c0, mkVdc b1 c1) = Ok ((mkVdc b0 (c0 + 1), mkVdc b1 (c1 + 1)), (x, y, z)) /\
    x * x + y * y + z * z = 1 /\ exists v, radical_inverse b0 (c0 + 1) v /\ z = 2 * v - 1.
Proof.
  intros b0 b1 c0 c1 fuel H0 H1 Hc0 Hc1 Hf0 Hf1.
  destruct (vdcorput_call_ok b0 c0 fuel H0 Hc0 Hf0) as (v & E & Hr).
  destruct (C104_circle_on_circle b1 c1 fuel H1 Hc1 Hf1) as (x & y & E1 & Hxy & _).
  assert (Hv := radical_range b0 (c0 + 1) v H0 ltac:(lia) Hr).
  assert (Hp : 0 <= 1 - (2 * v - 1) * (2 * v - 1)) by nra.
  unfold sphere_call. cbn [fst snd]. rewrite E. cbn [bind]. rewrite rsqrt_ok by exact Hp. cbn [bind].
  rewrite E1. cbn [bind fst snd]. do 3 eexists. split; [reflexivity|]. split.
  - assert (S := sqrt_sqrt _ Hp). set (r := sqrt _) in *.
    replace (r * x * (r * x) + r * y * (r * y)) with (r * r * (x * x + y * y)) by ring. rewrite S, Hxy. ring.
  - exists v; auto.
Qed.
Print Assumptions C104_sphere_on_sphere.

Theorem C104_hopf_on_sphere : forall (b0 b1 b2 c0 c1 c2 : Z) (fuel : nat),
  (2 <= b0)%Z -> (2 <= b1)%Z -> (2 <= b2)%Z -> (0 <= c0)%Z -> (0 <= c1)%Z -> (0 <= c2)%Z ->
  (Z.to_nat (Z.log2 (c0 + 1)) < fuel)%nat -> (Z.to_nat (Z.log2 (c1 + 1)) < fuel)%nat -> (Z.to_nat (Z.log2 (c2 + 1)) < fuel)%nat ->
  exists p q r t, hopf_call fuel (mkVdc b0 c0, mkVdc b1 c1, mkVdc b2 c2)
      = Ok ((mkVdc b0 (c0 + 1), mkVdc b1 (c1 + 1), mkVdc b2 (c2 + 1)), (p, q, r, t)) /\
    p * p + q * q + r * r + t * t = 1 /\ exists v, radical_inverse b2 (c2 + 1) v /\ p * p + q * q = v.
Proof.
  intros b0 b1 b2 c0 c1 c2 fuel H0 H1 H2 Hc0 Hc1 Hc2 Hf0 Hf1 Hf2.
  destruct (vdcorput_call_ok b0 c0 fuel H0 Hc0 Hf0) as (v0 & E0 & _).
  destruct (vdcorput_call_ok b1 c1 fuel H1 Hc1 Hf1) as (v1 & E1 & _).
  destruct (vdcorput_call_ok b2 c2 fuel H2 Hc2 Hf2) as (v & E2 & Hr).
  assert (Hv := radical_range b2 (c2 + 1) v H2 ltac:(lia) Hr).
  unfold hopf_call. rewrite E0. cbn [bind]. rewrite E1. cbn [bind]. rewrite E2. cbn [bind].
  rewrite rsqrt_ok by lra. cbn [bind]. rewrite rsqrt_ok by lra. cbn [bind].
  do 4 eexists. split; [reflexivity|].
  assert (S1 := sqrt_sqrt v ltac:(lra)). assert (S2 := sqrt_sqrt (1 - v) ltac:(lra)).
  set (a := sqrt v) in *. set (e := sqrt (1 - v)) in *.
  set (ps := v1 * (2 * PI)). set (ph := v0 * (2 * PI) + ps).
  assert (T1 := sin2_cos2 ps). assert (T2 := sin2_cos2 ph). unfold Rsqr in T1, T2.
  assert (Q1 : a * cos ps * (a * cos ps) + a * sin ps * (a * sin ps) = v).
  { replace (a * cos ps * (a * cos ps) + a * sin ps * (a * sin ps)) with (a * a * (sin ps * sin ps + cos ps * cos ps)) by ring.
    rewrite T1, S1. ring. }
  assert (Q2 : e * cos ph * (e * cos ph) + e * sin ph * (e * sin ph) = 1 - v).
  { replace (e * cos ph * (e * cos ph) + e * sin ph * (e * sin ph)) with (e * e * (sin ph * sin ph + cos ph * cos ph)) by ring.
    rewrite T2, S2. ring. }
  split; [lra|]. exists v. split; [exact Hr|exact Q1].
Qed.
Print Assumptions C104_hopf_on_sphere.

(** the points an object built from a list of bases gives, in order: which base drives which coordinate *)
Theorem C104_sphere_draws : forall (b0 b1 : Z) (rest : list Z) (n fuel : nat),
  (2 <= b0)%Z -> (2 <= b1)%Z -> (Z.to_nat (Z.log2 (Z.of_nat n)) < fuel)%nat ->
  exists o o' pts, sphere_init (b0 :: b1 :: rest) = Ok o /\ calls (sphere_call fuel) n o = Ok (o', pts) /\ length pts = n /\
    forall i d, (i < n)%nat -> exists v0 v1, radical_inverse b0 (Z.of_nat i + 1) v0 /\ radical_inverse b1 (Z.of_nat i + 1) v1 /\
      let s := sqrt (1 - (2 * v0 - 1) * (2 * v0 - 1)) in
      nth i pts d = (s * sin (2 * PI * v1), s * cos (2 * PI * v1), 2 * v0 - 1).
Proof.
  intros b0 b1 rest n fuel H0 H1 Hf.
  destruct (calls_spec (sphere_call fuel) (fun c => (mkVdc b0 c, mkVdc b1 c)) (fun c p => exists v0 v1, radical_inverse b0 (c + 1) v0 /\ radical_inverse b1 (c + 1) v1 /\
      let s := sqrt (1 - (2 * v0 - 1) * (2 * v0 - 1)) in p = (s * sin (2 * PI * v1), s * cos (2 * PI * v1), 2 * v0 - 1)) n 0%Z) as (pts & E & Hl & Hn).
  - intros c Hc. assert (Hf' : (Z.to_nat (Z.log2 (c + 1)) < fuel)%nat) by (eapply log2_fuel; [|exact Hf]; lia).
    destruct (vdcorput_call_ok b0 c fuel H0 ltac:(lia) Hf') as (v0 & E0 & R0). destruct (vdcorput_call_ok b1 c fuel H1 ltac:(lia) Hf') as (v1 & E1 & R1).
    assert (Hv := radical_range b0 (c + 1) v0 H0 ltac:(lia) R0).
    eexists. split; [|exists v0, v1; split; [exact R0|]; split; [exact R1|reflexivity]].
    unfold sphere_call, circle_call. cbn [fst snd]. rewrite E0. cbn [bind]. rewrite rsqrt_ok by nra. cbn [bind]. rewrite E1. cbn [bind fst snd]. reflexivity.
  - exists (mkVdc b0 0, mkVdc b1 0). eexists _, pts. split; [reflexivity|]. split; [exact E|]. split; [exact Hl|]. intros i d Hi. exact (Hn i d Hi).
Qed.
Print Assumptions C104_sphere_draws.

Theorem C104_hopf_draws : forall (b0 b1 b2 : Z) (rest : list Z) (n fuel : nat),
  (2 <= b0)%Z -> (2 <= b1)%Z -> (2 <= b2)%Z -> (Z.to_nat (Z.log2 (Z.of_nat n)) < fuel)%nat ->
  exists o o' pts, hopf_init (b0 :: b1 :: b2 :: rest) = Ok o /\ calls (hopf_call fuel) n o = Ok (o', pts) /\ length pts = n /\
    forall i d, (i < n)%nat -> exists v0 v1 v2, radical_inverse b0 (Z.of_nat i + 1) v0 /\ radical_inverse b1 (Z.of_nat i + 1) v1 /\ radical_inverse b2 (Z.of_nat i + 1) v2 /\
      let phi := v0 * (2 * PI) in let psy := v1 * (2 * PI) in
      nth i pts d = (sqrt v2 * cos psy, sqrt v2 * sin psy, sqrt (1 - v2) * cos (phi + psy), sqrt (1 - v2) * sin (phi + psy)).
Proof.
  intros b0 b1 b2 rest n fuel H0 H1 H2 Hf.
  destruct (calls_spec (hopf_call fuel) (fun c => (mkVdc b0 c, mkVdc b1 c, mkVdc b2 c)) (fun c p => exists v0 v1 v2, radical_inverse b0 (c + 1) v0 /\ radical_inverse b1 (c + 1) v1 /\ radical_inverse b2 (c + 1) v2 /\
      let phi := v0 * (2 * PI) in let psy := v1 * (2 * PI) in
      p = (sqrt v2 * cos psy, sqrt v2 * sin psy, sqrt (1 - v2) * cos (phi + psy), sqrt (1 - v2) * sin (phi + psy))) n 0%Z) as (pts & E & Hl & Hn).
  - intros c Hc. assert (Hf' : (Z.to_nat (Z.log2 (c + 1)) < fuel)%nat) by (eapply log2_fuel; [|exact Hf]; lia).
    destruct (vdcorput_call_ok b0 c fuel H0 ltac:(lia) Hf') as (v0 & E0 & R0). destruct (vdcorput_call_ok b1 c fuel H1 ltac:(lia) Hf') as (v1 & E1 & R1).
    destruct (vdcorput_call_ok b2 c fuel H2 ltac:(lia) Hf') as (v2 & E2 & R2).
    assert (Hv := radical_range b2 (c + 1) v2 H2 ltac:(lia) R2).
    eexists. split; [|exists v0, v1, v2; split; [exact R0|]; split; [exact R1|]; split; [exact R2|reflexivity]].
    unfold hopf_call. rewrite E0. cbn [bind]. rewrite E1. cbn [bind]. rewrite E2. cbn [bind]. rewrite rsqrt_ok by lra. cbn [bind]. rewrite rsqrt_ok by lra. cbn [bind]. reflexivity.
  - exists (mkVdc b0 0, mkVdc b1 0, mkVdc b2 0). eexists _, pts. split; [reflexivity|]. split; [exact E|]. split; [exact Hl|]. intros i d Hi. exact (Hn i d Hi).
Qed.
Print Assumptions C104_hopf_draws.
(** too few bases: no object *)
Theorem C104_short_bases : forall (base : list Z) (n : Z),
  ((length base < 2)%nat <-> sphere_init base = Raise AssertionError) /\
  ((length base < 3)%nat <-> hopf_init base = Raise AssertionError) /\
  ((length base < 2)%nat <-> halton_init base = Raise IndexError) /\
  ((Z.of_nat (length base) < n)%Z <-> halton_n_init n base = Raise IndexError).
Proof.
  intros base n. split; [|split; [|split]].
  - destruct base as [|b0 [|b1 r]]; cbn; split; intros H; try reflexivity; try lia; discriminate.
  - destruct base as [|b0 [|b1 [|b2 r]]]; cbn; split; intros H; try reflexivity; try lia; discriminate.
  - destruct base as [|b0 [|b1 r]]; cbn; split; intros H; try reflexivity; try lia; discriminate.
  - unfold halton_n_init. destruct (Z.ltb_spec (Z.of_nat (length base)) n); split; intros; try reflexivity; try lia; discriminate.
Qed.
Print Assumptions C104_short_bases.
Example C104_draws_ex : (Z.to_nat (Z.log2 (Z.of_nat 7)) < 3)%nat.
Proof. cbn. lia. Qed.

(** the constructors want enough bases *)
Example C104_ex : sphere_init [2%Z] = Raise AssertionError /\ hopf_init [2; 3]%Z = Raise AssertionError /\
  hopf_init [2; 3; 5]%Z = Ok (mkVdc 2 0, mkVdc 3 0, mkVdc 5 0) /\ (Z.to_nat (Z.log2 (0 + 1)) < 1)%nat.
Proof. repeat split; cbn; lia. Qed.

(** ** C105 create_2d_sites *)
Theorem C105_create_2d_sites : forall (nx ny : Z) (fuel : nat),
  (Z.to_nat (Z.log2 (nx * ny)) < fuel)%nat ->
  exists s : list (R * R), create_2d_sites fuel nx ny = Ok s /\ length s = Z.to_nat (nx * ny) /\
    (forall i d, (i < length s)%nat -> 0 < fst (nth i s d) < 10 /\ 0 < snd (nth i s d) < 8) /\
    (forall i j d, (i < length s)%nat -> (j < length s)%nat -> i <> j ->
       fst (nth i s d) <> fst (nth j s d) /\ snd (nth i s d) <> snd (nth j s d)) /\
    (forall i d, (i < length s)%nat -> radical_inverse 2 (Z.of_nat i + 1) (fst (nth i s d) / 10) /\
                                     radical_inverse 3 (Z.of_nat i + 1) (snd (nth i s d) / 8)).
Proof.
  intros nx ny fuel Hf. destruct (create_2d_sites_ok nx ny fuel Hf) as (s & E & Hl & Hn).
  exists s. split; [exact E|]. split; [exact Hl|].
  assert (Hr : forall i d, (i < length s)%nat -> radical_inverse 2 (Z.of_nat i + 1) (fst (nth i s d) / 10) /\
                                     radical_inverse 3 (Z.of_nat i + 1) (snd (nth i s d) / 8)).
  { intros i d Hi. destruct (Hn i d Hi) as (v0 & v1 & Ep & R0 & R1). rewrite Ep. cbn [fst snd].
    replace (10 * v0 / 10) with v0 by field. replace (8 * v1 / 8) with v1 by field. auto. }
  split; [|split; [|exact Hr]].
  - intros i d Hi. destruct (Hr i d Hi) as [R0 R1].
    assert (A0 := rr _ _ _ R0 ltac:(lia) ltac:(lia)). assert (A1 := rr _ _ _ R1 ltac:(lia) ltac:(lia)).
    assert (B0 := rp _ _ _ R0 ltac:(lia) ltac:(lia)). assert (B1 := rp _ _ _ R1 ltac:(lia) ltac:(lia)).
    lra.
  - intros i j d Hi Hj Hij. destruct (Hr i d Hi) as [R0 R1]. destruct (Hr j d Hj) as [S0 S1].
    split; intros EE; rewrite EE in *; apply Hij.
    + assert (X := ri _ _ _ _ R0 S0 ltac:(lia) ltac:(lia) ltac:(lia)). lia.
    + assert (X := ri _ _ _ _ R1 S1 ltac:(lia) ltac:(lia) ltac:(lia)). lia.
Qed.
Print Assumptions C105_create_2d_sites.

(** the value checked by test_corr_fn.py: s[6, 0] = 8.75 *)
Example C105_ex : match create_2d_sites (A := Q) 10 5 4 with
  | Ok s => length s = 20%nat /\ fst (nth 6 s (0, 0)%Q) = (35 # 4)%Q
  | Raise _ => False
  end.
Proof. vm_compute. auto. Qed.

(** ** C106 create_2d_isotropic *)
(** the list of sites as a matrix with rows *)
Definition site_mat (s : list (R * R)) : nat -> nat -> R :=
  fun i k => match k with 0%nat => fst (nth i s (0, 0)) | _ => snd (nth i s (0, 0)) end.

(** for different sites the kernel matrix is positive definite, so cholesky accepts it; the result
    is symmetric, positive semidefinite, and singular if there are fewer samples than sites.
    All of this for arbitrary random draws. *)
Theorem C106_isotropic : forall chol rnd noise (n d : nat) (s : nat -> nat -> R) (N : Z),
  np_cholesky_spec chol -> distinct_sites n d s -> (0 < N)%Z ->
  exists Y, create_2d_isotropic chol rnd noise n d s N = Ok Y /\ sym n Y /\ psd n Y /\
    ((N < Z.of_nat n)%Z -> ~ pd n Y).
Proof.
  intros chol rnd noise n d s N Hc Hd HN.
  destruct (create_2d_isotropic_ok chol rnd noise n d s N Hc Hd HN) as (Y & y & E & HY).
  exists Y. split; [exact E|].
  assert (Hm : meq n Y (fun i j => rsum (Z.to_nat N) (fun k => y k i * y k j) * / IZR N)).
  { intros i j Hi Hj. rewrite HY by assumption. reflexivity. }
  assert (HNi : 0 < / IZR N) by (apply Rinv_0_lt_compat, IZR_lt, HN).
  split; [|split].
  - intros i j Hi Hj. rewrite !HY by assumption. f_equal. apply rsum_ext; intros; ring.
  - intros u. rewrite (bf_mext n Y _ u u Hm), bf_scale.
    assert (X := gram_psd n (Z.to_nat N) y u). apply Rmult_le_pos; lra.
  - intros Hlt Hp. apply (gram_singular n (Z.to_nat N) y); [lia|]. intros u Hu. specialize (Hp u Hu).
    rewrite (bf_mext n Y _ u u Hm), bf_scale in Hp.
    apply Rmult_lt_reg_l with (/ IZR N); [exact HNi|]. lra.
Qed.
Print Assumptions C106_isotropic.

(** two equal sites: cholesky raises, whatever the draws *)
Theorem C106_repeated_site_raises : forall chol rnd noise (n d : nat) (s : nat -> nat -> R) (N : Z) i j,
  np_cholesky_spec chol -> (i < n)%nat -> (j < n)%nat -> i <> j -> (forall k, (k < d)%nat -> s i k = s j k) ->
  exists e, create_2d_isotropic chol rnd noise n d s N = Raise e.
Proof.
  intros chol rnd noise n d s N i j Hc Hi Hj Hij He. unfold create_2d_isotropic.
  destruct (isotropic_kernel_ok n d s) as (Sig & E & HS). rewrite E. cbn [bind].
  destruct (proj2 (Hc n Sig ltac:(intros a b Ha Hb; rewrite !HS by assumption; apply gauss_sym with (n := n); assumption))) as [e Ee].
  - intros Hp. apply (gauss_not_pd n d s (12 / 100) i j Hi Hj Hij He).
    intros u Hu. specialize (Hp u Hu). rewrite (bf_mext n Sig _ u u HS) in Hp. exact Hp.
  - exists e. rewrite Ee. reflexivity.
Qed.
Print Assumptions C106_repeated_site_raises.

(** the two functions together, as in test_corr_fn.py *)
Theorem C106_test_problem : forall chol rnd noise (nx ny N : Z) (fuel : nat),
  np_cholesky_spec chol -> (0 < N)%Z -> (Z.to_nat (Z.log2 (nx * ny)) < fuel)%nat ->
  exists s Y, create_2d_sites fuel nx ny = Ok s /\
    create_2d_isotropic chol rnd noise (length s) 2 (site_mat s) N = Ok Y /\
    sym (length s) Y /\ psd (length s) Y.
Proof.
  intros chol rnd noise nx ny N fuel Hc HN Hf.
  destruct (C105_create_2d_sites nx ny fuel Hf) as (s & E & _ & _ & Hd & _).
  destruct (C106_isotropic chol rnd noise (length s) 2 (site_mat s) N Hc) as (Y & EY & Hs & Hp & _).
  - intros i j Hi Hj Hij. exists 0%nat. split; [lia|]. cbn. apply (Hd i j (0, 0) Hi Hj Hij).
  - exact HN.
  - exists s, Y. auto.
Qed.
Print Assumptions C106_test_problem.

(** chol_ext itself is a cholesky with the required behaviour *)
Definition chol_ext_cholesky (n : nat) (M : nat -> nat -> R) : res (nat -> nat -> R) :=
  ' (Q1, _) <- chol_factorize M (chol_init n) ;;
  U <- chol_sqrt Q1 ;; Ok (fun i j => U j i).
Example C106_ex : np_cholesky_spec chol_ext_cholesky.
Proof.
  intros n M Hs. unfold chol_ext_cholesky.
  destruct (C27_factorize_decides_pd M (chol_init n) Hs eq_refl) as (Q1 & b & E & Hb & _).
  assert (S := C31_sqrt_is_cholesky M (chol_init n) Q1 b Hs eq_refl E). cbv zeta in S.
  change (c_n (chol_init n)) with n in S. rewrite E. cbn [bind]. split; intros Hp.
  - rewrite (proj2 Hb Hp) in S. destruct S as (U & EU & H1 & H2 & H3). rewrite EU. cbn [bind].
    eexists; split; [reflexivity|]. split; [|split].
    + intros i j Hij Hj. apply H1, Hij.
    + exact H2.
    + intros i j Hi Hj. symmetry. apply H3; assumption.
  - destruct b; [exfalso; apply Hp, Hb; reflexivity|]. rewrite S. eexists; reflexivity.
Qed.

(** ** C107 the generators in binary64 *)
(** base 2: exact for every number below 2^53 *)
Theorem C107_vdc_base2_exact : forall (k : Z) (fuel : nat),
  (0 <= k < 2 ^ 53)%Z -> (53 <= fuel)%nat ->
  exists v : b64, vdc fuel k 2 = Ok v /\ is_finite v = true /\ radical_inverse 2 k (B2R v) /\ 0 <= B2R v < 1.
Proof.
  intros k fuel Hk Hf.
  destruct (fvdc_loop_2 53 fuel k 0 0 nzero none Hf Hk) as (r & E & F & V).
  - lia.
  - reflexivity.
  - apply fone.
  - cbn. ring.
  - cbn. lia.
  - apply fone.
  - exists r. split; [exact E|]. split; [exact F|].
    assert (Ev : B2R r = phi 2 k 53) by (rewrite V; cbn -[phi]; ring).
    assert (Hrad : radical_inverse 2 k (B2R r)).
    { intros m Hm. rewrite Ev. fold (phi 2 k m). apply phi_irrel; lia. }
    split; [exact Hrad|]. eapply radical_range; [| |exact Hrad]; lia.
Qed.
Print Assumptions C107_vdc_base2_exact.

(** any base: the error is at most 2^-52 per digit while b^m <= 2^53 *)
Theorem C107_vdc_error : forall (b k : Z) (m fuel : nat),
  (2 <= b)%Z -> (0 <= k < b ^ Z.of_nat m)%Z -> (b ^ Z.of_nat m <= 2 ^ 53)%Z -> (m <= fuel)%nat ->
  exists (v : b64) x, vdc fuel k b = Ok v /\ is_finite v = true /\ radical_inverse b k x /\ 0 <= B2R v /\
    Rabs (B2R v - x) <= INR m * Raux.bpow Zaux.radix2 (-52).
Proof.
  intros b k m fuel Hb Hk Hp Hf.
  assert (Hm : (m <= 53)%nat).
  { assert (X : (2 ^ Z.of_nat m <= 2 ^ 53)%Z) by (apply Z.le_trans with (b ^ Z.of_nat m)%Z; [apply Z.pow_le_mono_l; lia|exact Hp]).
    destruct (le_lt_dec m 53) as [|L]; [assumption|]. exfalso.
    assert (Y : (2 ^ 54 <= 2 ^ Z.of_nat m)%Z) by (apply Z.pow_le_mono_r; lia). assert ((2 ^ 53 < 2 ^ 54)%Z) by reflexivity. lia. }
  destruct (fvdc_loop_err b Hb m fuel k 0 0 nzero none Hf Hk) as (r & E & F & V0 & V).
  - exact Hp.
  - reflexivity.
  - apply fone.
  - apply fone.
  - cbn. lra.
  - cbn. replace (/ 1) with 1 by field. lra.
  - cbn [INR]. change (B2R nzero) with 0. rewrite Rminus_0_r, Rabs_R0, Rmult_0_l. lra.
  - exact Hm.
  - exists r, (phi b k m). split; [exact E|]. split; [exact F|]. split.
    + intros m' Hm'. fold (phi b k m'). apply phi_irrel; lia.
    + split; [exact V0|]. cbn [Nat.add Z.of_nat Z.pow] in V. rewrite Rplus_0_l in V. unfold Rdiv in V. rewrite Rinv_1, Rmult_1_r in V. exact V.
Qed.
Print Assumptions C107_vdc_error.

(** larger numbers: the value need not stay below 1, vdc(2^54 - 1) is 1.0 *)
Theorem C107_vdc_reaches_one :
  exists v : b64, vdc 60 (2 ^ 54 - 1) 2 = Ok v /\ B2R v = 1.
Proof.
  assert (X : match vdc (A := b64) 60 (2 ^ 54 - 1) 2 with Ok v => B2SF v | Raise _ => S754_nan end = B2SF (fmake 1 0))
    by (vm_compute; reflexivity).
  destruct (vdc (A := b64) 60 (2 ^ 54 - 1) 2) as [v|e]; [|vm_compute in X; discriminate X].
  exists v. split; [reflexivity|]. apply B2SF_inj in X. rewrite X. apply fone.
Qed.
Print Assumptions C107_vdc_reaches_one.

(** create_2d_sites in binary64: first coordinates exact, hence all sites different; second
    coordinates within 31 * 2^-49 *)
Theorem C107_create_2d_sites : forall (nx ny : Z) (fuel : nat),
  (nx * ny < 2 ^ 49)%Z -> (53 <= fuel)%nat ->
  exists s : list (b64 * b64), create_2d_sites fuel nx ny = Ok s /\ length s = Z.to_nat (nx * ny) /\
    (forall i d, (i < length s)%nat -> is_finite (fst (nth i s d)) = true /\ is_finite (snd (nth i s d)) = true /\
       radical_inverse 2 (Z.of_nat i + 1) (B2R (fst (nth i s d)) / 10) /\
       exists y, radical_inverse 3 (Z.of_nat i + 1) y /\ 0 <= B2R (snd (nth i s d)) /\
         Rabs (B2R (snd (nth i s d)) - 8 * y) <= 31 * Raux.bpow Zaux.radix2 (-49)) /\
    (forall i j d, (i < length s)%nat -> (j < length s)%nat -> i <> j -> B2R (fst (nth i s d)) <> B2R (fst (nth j s d))).
Proof.
  intros nx ny fuel Hn Hf.
  destruct (calls_spec (halton_call (A := b64) fuel) (fun c => (mkVdc 2 c, mkVdc 3 c))
     (fun c v => (is_finite (fst v) = true /\ is_finite (snd v) = true) /\ radical_inverse 2 (c + 1) (B2R (fst v)) /\ 0 <= B2R (snd v) /\
        exists y, radical_inverse 3 (c + 1) y /\ Rabs (B2R (snd v) - y) <= 31 * Raux.bpow Zaux.radix2 (-52)) (Z.to_nat (nx * ny)) 0%Z)
    as (pts & E & Hl & Hv).
  { intros c Hc.
    destruct (C107_vdc_base2_exact (c + 1) fuel ltac:(lia) Hf) as (v0 & E0 & F0 & R0 & _).
    destruct (C107_vdc_error 3 (c + 1) 31 fuel ltac:(lia)) as (v1 & y & E1 & F1 & R1 & V1 & D1).
    - assert ((2 ^ 49 < 3 ^ Z.of_nat 31)%Z) by reflexivity. lia.
    - apply Z.leb_le. vm_compute. reflexivity.
    - lia.
    - exists (v0, v1). unfold halton_call, vdcorput_call. cbn [fst snd vd_base vd_count]. rewrite E0. cbn [bind]. rewrite E1. cbn [bind].
      split; [reflexivity|]. cbn [fst snd]. split; [auto|]. split; [exact R0|]. split; [exact V1|]. exists y. split; [exact R1|].
      replace 31 with (INR 31) by (cbn; ring). exact D1. }
  assert (Hpt : forall i, (i < Z.to_nat (nx * ny))%nat ->
     let p := nth i pts (nzero, nzero) in let x := fmul (nofZ 10) (fst p) in let y := fmul (nofZ 8) (snd p) in
     is_finite x = true /\ is_finite y = true /\ radical_inverse 2 (Z.of_nat i + 1) (B2R x / 10) /\
     exists z, radical_inverse 3 (Z.of_nat i + 1) z /\ 0 <= B2R y /\ Rabs (B2R y - 8 * z) <= 31 * Raux.bpow Zaux.radix2 (-49)).
  { intros i Hi p x y. destruct (Hv i (nzero, nzero) Hi) as [[F0 F1] [R0 [V1 (z & R1 & D1)]]].
    fold p in F0, F1, R0, V1, D1. rewrite Z.add_0_l in *.
    assert (K : (0 <= Z.of_nat i + 1 < 2 ^ 49)%Z) by lia.
    destruct (fofZ_R 10 ltac:(lia)) as [E10 F10]. destruct (fofZ_R 8 ltac:(lia)) as [E8 F8].
    (* the first coordinate: 10 * (integer / 2^49) *)
    assert (EM : exists M, B2R (fst p) = IZR M * Raux.bpow Zaux.radix2 (-49) /\ (0 <= M < 2 ^ 49)%Z).
    { destruct (radical_cell 2 _ _ 49 (rev 2 49 (Z.of_nat i + 1)) ltac:(lia) (proj1 K) R0) as [_ C].
      specialize (C eq_refl). assert (RR := rev_range 2 49 ltac:(lia) (Z.of_nat i + 1)).
      exists (rev 2 49 (Z.of_nat i + 1)). split; [|exact RR].
      assert (Hphi : radical_inverse 2 (Z.of_nat i + 1) (IZR (rev 2 49 (Z.of_nat i + 1)) * Raux.bpow Zaux.radix2 (-49))).
      { assert (G : forall m k, (0 <= k < 2 ^ Z.of_nat m)%Z -> phi 2 k m = IZR (rev 2 m k) / IZR (2 ^ Z.of_nat m)).
        { clear. induction m as [|m IH]; intros k Hk; [unfold phi; cbn; field|].
          assert (Hk2 : (0 <= k / 2 < 2 ^ Z.of_nat m)%Z).
          { rewrite Nat2Z.inj_succ, Z.pow_succ_r in Hk by lia. split; [apply Z.div_pos|apply Z.div_lt_upper_bound]; lia. }
          rewrite phi_S, IH by (exact Hk2 || lia).
          cbn [rev]. rewrite Nat2Z.inj_succ, Z.pow_succ_r, plus_IZR, !mult_IZR by lia.
          assert (0 < IZR (2 ^ Z.of_nat m)) by (apply IZR_lt, Z.pow_pos_nonneg; lia). field. lra. }
        intros m Hm. fold (phi 2 (Z.of_nat i + 1) m). rewrite (phi_irrel 2 _ m 49) by (cbn -[Z.pow]; lia).
        rewrite G by exact K. change (IZR (2 ^ Z.of_nat 49)) with (Raux.bpow Zaux.radix2 49).
        unfold Rdiv. rewrite <- (Raux.bpow_opp Zaux.radix2 49). reflexivity. }
      eapply radical_fun; [| |exact R0|exact Hphi]; lia. }
    destruct EM as (M & EM & HM).
    assert (EX : B2R x = 10 * B2R (fst p) /\ is_finite x = true).
    { unfold x. rewrite <- E10. apply fmul_exact; [exact F10|exact F0| |]; rewrite E10, EM;
        replace (10 * (IZR M * Raux.bpow Zaux.radix2 (-49))) with (IZR (10 * M) * Raux.bpow Zaux.radix2 (-49)) by (rewrite mult_IZR; ring).
      - apply fmt_scaled; lia.
      - rewrite Rabs_pos_eq.
        + apply Rlt_le_trans with (IZR (2 ^ 53) * Raux.bpow Zaux.radix2 (-49)).
          * apply Rmult_lt_compat_r; [apply Raux.bpow_gt_0|apply IZR_lt; lia].
          * change (IZR (2 ^ 53)) with (Raux.bpow Zaux.radix2 53). rewrite <- Raux.bpow_plus. apply Raux.bpow_le; lia.
        + apply Rmult_le_pos; [apply IZR_le; lia|apply Raux.bpow_ge_0]. }
    assert (R1r := rr _ _ _ R1 ltac:(lia) ltac:(lia)).
    assert (P52 : Raux.bpow Zaux.radix2 (-52) = / 4503599627370496) by reflexivity.
    assert (V2 : B2R (snd p) <= 2) by (revert D1; rewrite P52; unfold Rabs; destruct (Rcase_abs _); lra).
    assert (EY : B2R y = 8 * B2R (snd p) /\ is_finite y = true).
    { unfold y. rewrite <- E8. apply fmul_exact; [exact F8|exact F1| |]; rewrite E8.
      - destruct (b64_scaled (snd p)) as (mm & cc & E' & Hm' & Hc'). rewrite E'.
        replace (8 * (IZR mm * Raux.bpow Zaux.radix2 cc)) with (IZR mm * Raux.bpow Zaux.radix2 (3 + cc)).
        + apply fmt_scaled; lia.
        + rewrite Raux.bpow_plus. change (Raux.bpow Zaux.radix2 3) with 8. ring.
      - rewrite Rabs_pos_eq by lra. apply Rle_lt_trans with (Raux.bpow Zaux.radix2 4); [cbn; lra|apply Raux.bpow_lt; lia]. }
    destruct EX as [EX FX]. destruct EY as [EY FY]. split; [exact FX|]. split; [exact FY|]. split.
    - rewrite EX. replace (10 * B2R (fst p) / 10) with (B2R (fst p)) by field. exact R0.
    - exists z. split; [exact R1|]. rewrite EY. split; [lra|].
      replace (8 * B2R (snd p) - 8 * z) with (8 * (B2R (snd p) - z)) by ring. rewrite Rabs_mult, (Rabs_pos_eq 8) by lra.
      change (Raux.bpow Zaux.radix2 (-49)) with (Raux.bpow Zaux.radix2 (3 + -52)). rewrite (Raux.bpow_plus Zaux.radix2 3).
      change (Raux.bpow Zaux.radix2 3) with 8. lra. }
  exists (map (fun p => (fmul (nofZ 10) (fst p), fmul (nofZ 8) (snd p))) pts).
  split.
  { unfold create_2d_sites. cbn [halton_init bind]. unfold vdcorput_init.
    cbv beta in E. etransitivity; [apply (f_equal (fun r => bind r _)); exact E|]. reflexivity. }
  rewrite map_length. split; [exact Hl|]. split.
  - intros i d Hi. rewrite (nth_map2 _ _ _ _ (nzero, nzero)) by exact Hi. rewrite Hl in Hi. cbn [fst snd]. exact (Hpt i Hi).
  - intros i j d Hi Hj Hij EE. rewrite !(nth_map2 _ _ _ _ (nzero, nzero)) in EE by assumption. rewrite Hl in Hi, Hj. cbn [fst] in EE.
    destruct (Hpt i Hi) as (_ & _ & R0 & _). destruct (Hpt j Hj) as (_ & _ & R1 & _). rewrite EE in R0.
    assert (X := ri _ _ _ _ R0 R1 ltac:(lia) ltac:(lia) ltac:(lia)). lia.
Qed.
Print Assumptions C107_create_2d_sites.

Example C107_ex : (10 * 8 < 2 ^ 49)%Z /\ (0 <= 5 < 3 ^ Z.of_nat 2)%Z /\ (3 ^ Z.of_nat 2 <= 2 ^ 53)%Z.
Proof. cbn -[Z.pow]. lia. Qed.

(** ** C108 the generators vdcorput(n, base) and halton_n(k, n, b) *)
Lemma vdc_list_ok b fuel n : (2 <= b)%Z -> forall i, (0 <= i)%Z -> (Z.to_nat (Z.log2 (i + Z.of_nat n)) < fuel)%nat ->
  exists vs : list R, vdc_list fuel n i b = Ok vs /\ length vs = n /\
    forall j d, (j < n)%nat -> radical_inverse b (i + Z.of_nat j) (nth j vs d).
Proof.
  intros Hb. induction n as [|n IH]; intros i Hi Hf; [exists []; cbn; split; [|split]; [reflexivity..|intros; lia]|].
  destruct (vdc_ok_ex b i fuel Hb Hi) as (v & E & Hr); [eapply log2_fuel; [|exact Hf]; lia|].
  destruct (IH (i + 1)%Z ltac:(lia)) as (vs & E2 & Hl & Hn); [eapply log2_fuel; [|exact Hf]; lia|].
  exists (v :: vs). cbn [vdc_list]. rewrite E. cbn [bind]. rewrite E2. cbn [bind length]. split; [reflexivity|]. split; [lia|].
  intros [|j] d Hj; cbn [nth]; [rewrite Z.add_0_r; exact Hr|].
  replace (i + Z.of_nat (S j))%Z with (i + 1 + Z.of_nat j)%Z by lia. apply Hn. lia.
Qed.

Lemma zip_cons_ok (vs : list R) : forall rest, length rest = length vs ->
  exists l, zip_cons vs rest = Ok l /\ length l = length vs /\
    forall j d, (j < length vs)%nat -> nth j l d = nth j vs 0 :: nth j rest [].
Proof.
  induction vs as [|v vs IH]; intros [|r rest] Hl; cbn [length] in Hl; try discriminate.
  - exists []. cbn. split; [|split]; [reflexivity..|intros; lia].
  - destruct (IH rest) as (l & E & L & Hn); [congruence|]. exists ((v :: r) :: l). cbn [zip_cons]. rewrite E. cbn [bind length].
    split; [reflexivity|]. split; [congruence|]. intros [|j] d Hj; cbn [nth]; [reflexivity|]. apply Hn. lia.
Qed.

Theorem C108_vdcorput_generator : forall (b n : Z) (fuel : nat),
  (2 <= b)%Z -> (Z.to_nat (Z.log2 n) < fuel)%nat ->
  exists vs : list R, vdcorput_gen fuel n b = Ok vs /\ length vs = Z.to_nat n /\
    forall j d, (j < length vs)%nat -> radical_inverse b (Z.of_nat j) (nth j vs d).
Proof.
  intros b n fuel Hb Hf. unfold vdcorput_gen.
  destruct (vdc_list_ok b fuel (Z.to_nat n) Hb 0%Z ltac:(lia)) as (vs & E & Hl & Hn).
  { destruct (Z.le_gt_cases 0 n); [rewrite Z.add_0_l, Z2Nat.id by lia; exact Hf|].
    rewrite Z.add_0_l. replace (Z.to_nat n) with 0%nat by lia. cbn. lia. }
  exists vs. split; [exact E|]. split; [exact Hl|]. intros j d Hj. rewrite Hl in Hj. exact (Hn j d Hj).
Qed.
Print Assumptions C108_vdcorput_generator.

Theorem C108_halton_generator : forall (b : list Z) (k n : Z) (fuel : nat),
  Forall (fun c => 2 <= c)%Z b -> (Z.to_nat (Z.log2 k) < fuel)%nat ->
  ((1 <= n <= Z.of_nat (length b))%Z ->
   exists pts : list (list R), halton_gen fuel k n b = Ok pts /\ length pts = Z.to_nat k /\
     forall i d, (i < length pts)%nat ->
       Forall2 (fun c v => radical_inverse c (Z.of_nat i) v) (firstn (Z.to_nat n) b) (nth i pts d)) /\
  ((0 < k)%Z -> (n < 1 \/ Z.of_nat (length b) < n)%Z -> halton_gen (A := R) fuel k n b = Raise IndexError).
Proof.
  intros b k n fuel Hb Hf. revert n. induction Hb as [|c b Hc Hb IH]; intros n.
  { split; [cbn [length]; lia|]. intros _ _. reflexivity. }
  destruct (C108_vdcorput_generator c k fuel Hc Hf) as (vs & E & Hl & Hn).
  cbn [halton_gen]. rewrite E. cbn [bind length]. split.
  - intros Hr. destruct (Z.eqb_spec n 1) as [->|N1].
    + eexists. split; [reflexivity|]. rewrite map_length. split; [exact Hl|]. intros i d Hi.
      change (firstn (Z.to_nat 1) (c :: b)) with [c]. rewrite (nth_map2 _ _ _ _ 0) by exact Hi.
      constructor; [apply Hn, Hi|constructor].
    + destruct (Z.leb_spec k 0) as [K|K].
      { exists []. split; [reflexivity|]. cbn [length]. split; [lia|]. intros; lia. }
      destruct (proj1 (IH (n - 1)%Z)) as (rest & E2 & L2 & H2); [lia|]. rewrite E2. cbn [bind].
      destruct (zip_cons_ok vs rest) as (l & E3 & L3 & H3); [congruence|]. exists l. split; [exact E3|]. split; [congruence|].
      intros i d Hi. rewrite L3 in Hi. rewrite H3 by exact Hi.
      replace (Z.to_nat n) with (S (Z.to_nat (n - 1))) by lia. cbn [firstn]. constructor; [apply Hn, Hi|].
      apply H2. congruence.
  - intros K Hr. destruct (Z.eqb_spec n 1) as [->|N1]; [cbn [length] in Hr; lia|].
    destruct (Z.leb_spec k 0) as [K'|_]; [lia|]. rewrite (proj2 (IH (n - 1)%Z) K) by (cbn [length] in Hr; lia). reflexivity.
Qed.
Print Assumptions C108_halton_generator.

(** the call in the drafts: halton_n(10, 2, [2, 3]) *)
Example C108_ex : match halton_gen (A := Q) 10 10 2 [2; 3]%Z with
  | Ok l => length l = 10%nat /\ nth 0 l [] = [0; 0]%Q /\ nth 5 l [] = [5 # 8; 7 # 9]%Q
  | Raise _ => False
  end /\ halton_gen (A := Q) 10 10 3 [2; 3]%Z = Raise IndexError.
Proof. vm_compute. auto. Qed.

(** ** C109 the table of primes in vdcorput.tpy *)
Definition small_divisor (p : Z) : bool := existsb (fun d => (p mod d =? 0)%Z && (d * d <=? p)%Z) (map Z.of_nat (seq 2 87)).
Lemma prime_trial p : (2 <= p < 89 * 89)%Z -> prime p <-> small_divisor p = false.
Proof.
  intros Hp. unfold small_divisor. split; intros H.
  - destruct (existsb _ _) eqn:E; [|reflexivity]. exfalso.
    apply existsb_exists in E as (d & Hd & Hb). apply in_map_iff in Hd as (i & <- & Hi). apply in_seq in Hi.
    apply Bool.andb_true_iff in Hb as [Hm Hs]. apply Z.eqb_eq in Hm. apply Z.leb_le in Hs.
    assert (D : (Z.of_nat i | p)%Z) by (apply Z.mod_divide; lia).
    destruct (prime_divisors p H _ D) as [X|[X|[X|X]]]; try lia. rewrite X in Hs. nia.
  - destruct (prime_dec p) as [|N]; [assumption|]. exfalso.
    destruct (not_prime_divide p ltac:(lia) N) as (d & Hd & D). destruct D as [q Hq].
    assert (Hq' : (1 < q < p)%Z) by nia.
    assert (exists e, (2 <= e /\ e * e <= p /\ (e | p))%Z) as (e & He & Hs & D).
    { destruct (Z.le_gt_cases d q).
      - exists d. split; [lia|]. split; [nia|]. exists q; exact Hq.
      - exists q. split; [lia|]. split; [nia|]. exists d. lia. }
    assert (He89 : (e < 89)%Z) by nia.
    enough (existsb (fun d => (p mod d =? 0)%Z && (d * d <=? p)%Z) (map Z.of_nat (seq 2 87)) = true) by congruence.
    apply existsb_exists. exists e. split.
    + apply in_map_iff. exists (Z.to_nat e). split; [lia|]. apply in_seq. lia.
    + apply Bool.andb_true_iff. split; [apply Z.eqb_eq, Z.mod_divide; [lia|exact D]|apply Z.leb_le, Hs].
Qed.

(** prime_table holds exactly the primes up to 7919, in increasing order, so any two of its entries
    are coprime bases for C103 *)
Theorem C109_prime_table : length prime_table = 1000%nat /\
  (forall p, In p prime_table <-> prime p /\ (p <= 7919)%Z) /\
  (forall i j, (i < j < 1000)%nat -> (nth i prime_table 0 < nth j prime_table 0)%Z) /\
  ForallOrdPairs rel_prime prime_table.
Proof.
  assert (E : prime_table = filter (fun p => negb (small_divisor p)) (map Z.of_nat (seq 2 (Z.to_nat 7918)))) by (vm_compute; reflexivity).
  assert (HI : forall p, In p prime_table <-> prime p /\ (p <= 7919)%Z).
  { intros p. rewrite E, filter_In, in_map_iff. split.
    - intros [(i & <- & Hi) Hs]. apply in_seq in Hi. apply Bool.negb_true_iff in Hs. split; [|lia]. apply prime_trial; [lia|exact Hs].
    - intros [Hp Hl]. assert (2 <= p)%Z by (apply prime_ge_2, Hp). split.
      + exists (Z.to_nat p). split; [lia|]. apply in_seq. lia.
      + apply Bool.negb_true_iff, prime_trial; [lia|exact Hp]. }
  assert (HL : length prime_table = 1000%nat) by reflexivity.
  assert (HS : StronglySorted Z.lt prime_table).
  { rewrite E. clear. generalize (Z.to_nat 7918). intros n. generalize 2%nat. induction n as [|n IH]; intros s; cbn [seq map filter]; [constructor|].
    destruct (negb _); [|apply IH]. constructor; [apply IH|]. apply Forall_forall. intros x Hx. apply filter_In in Hx as [Hx _].
    apply in_map_iff in Hx as (i & <- & Hi). apply in_seq in Hi. lia. }
  split; [exact HL|]. split; [exact HI|]. split.
  - rewrite <- HL. clear - HS. intros i j Hij. revert i j Hij. induction HS as [|a l HS IH HF]; intros i j Hij; [cbn in Hij; lia|].
    destruct j as [|j]; [lia|]. cbn [length] in Hij. destruct i as [|i]; cbn [nth].
    + rewrite Forall_forall in HF. apply HF, nth_In. lia.
    + apply IH. lia.
  - assert (HP : Forall prime prime_table) by (apply Forall_forall; intros p Hp; apply HI, Hp).
    clear - HS HP. induction HS as [|a l HS IH HF]; [constructor|]. inversion HP as [|? ? Ha Hl]; subst. constructor; [|apply IH, Hl].
    rewrite Forall_forall in *. intros x Hx. specialize (HF x Hx). specialize (Hl x Hx).
    apply prime_rel_prime; [exact Ha|]. intros D. destruct (prime_divisors x Hl a D) as [X|[X|[X|X]]]; destruct Ha; lia.
Qed.
Print Assumptions C109_prime_table.

Example C109_ex : nth 0 prime_table 0%Z = 2%Z /\ nth 25 prime_table 0%Z = 101%Z /\ nth 999 prime_table 0%Z = 7919%Z.
Proof. repeat split. Qed.
