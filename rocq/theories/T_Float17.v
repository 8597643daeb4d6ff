(** Property theorem about nosoln of cutting_plane_dc with optscaling_oracle over ell, in binary64 (C170). *)
From Coq Require Import ZArith Reals Lra Lia Bool List SpecFloat.
From Flocq Require Import Core.Core IEEE754.BinarySingleNaN.
From Verif Require Import Base M_Net S_LinAlg P_LinAlg S_Net P_Net T_Net M_Drivers S_Drivers P_Drivers T_Drivers M_Ell S_Ell M_Float P_Float P_Float2 S_Float S_Float2
  S_EllF S_EllRun P_EllRun P_RunF P_FSum P_NetF T_Float T_Float2 T_Float3 T_Float5 T_Float10 T_Float13 T_Float14 T_Float16.
Import ListNotations.
Local Open Scope R_scope.

(** the events of a run, with an invariant that may depend on the number of the query *)
Section DCn.
Context {O T : Type}.
Variables (dotf : nat -> (nat -> b64) -> (nat -> b64) -> b64) (omega : O -> (nat -> b64) -> T -> res (O * (@cut b64 * option T))).
Variables (I : nat -> O -> T -> Prop) (P : (nat -> b64) -> Prop) (R : T -> T -> Prop).
Notation sp := (@ell_space b64 (FNumD dotf)).
Hypothesis Rrefl : forall t, R t t.
Hypothesis Rtrans : forall a b c, R a b -> R b c -> R a c.
Hypothesis step : forall n o x t o' c t1, I n o t -> P x -> omega o x t = Ok (o', (c, t1)) -> I (S n) o' (best t t1) /\ R (best t t1) t.
Lemma dc_events_n : forall tr o st t o' st' t', dc_replay sp omega o st t tr o' st' t' -> forall n, I n o t ->
  (forall st1 c, asked64_dc sp omega o st t tr st1 c -> P (fst st1 (e_xc (snd st1)))) ->
  R t' t /\
  forall ev, In ev tr -> exists st1 m o1 o2 t0, asked64_dc sp omega o st t tr st1 (d_cut ev) /\ e_n (snd st1) = e_n (snd st) /\ d_x ev = fst st1 (e_xc (snd st1)) /\
    (m < n + length tr)%nat /\ I m o1 t0 /\ I (S m) o2 (best t0 (d_t1 ev)) /\ omega o1 (d_x ev) t0 = Ok (o2, (d_cut ev, d_t1 ev)) /\ R t' (best t0 (d_t1 ev)) /\ R t' t0.
Proof.
  intros tr o st t o' st' t' H. induction H as [o st t|o st t c t1 o1 st1 s q tr o' st' t' E U H IH]; intros n HI HP.
  - split; [apply Rrefl|]. intros ev [].
  - set (e0 := {| d_x := centre sp st; d_t := t; d_cut := c; d_t1 := t1; d_status := s; d_tsq := q |}) in *.
    assert (A0 : asked64_dc sp omega o st t (e0 :: tr) st c).
    { exists [], e0, tr, o, t. split; [reflexivity|]. split; [reflexivity|constructor]. }
    assert (EX : centre sp st = fst st (e_xc (snd st))) by (destruct st; reflexivity).
    assert (AT : forall s1 c0, asked64_dc sp omega o1 st1 (best t t1) tr s1 c0 -> asked64_dc sp omega o st t (e0 :: tr) s1 c0).
    { intros s1 c0 (u1 & ev & u2 & o2 & t2 & Et & Ec & Hr). exists (e0 :: u1), ev, u2, o2, t2.
      split; [cbn [app]; congruence|]. split; [exact Ec|]. unfold e0. eapply DR_cut; eassumption. }
    assert (PX := HP st c A0). rewrite <- EX in PX.
    destruct (step _ _ _ _ _ _ _ HI PX E) as [I1 R1].
    destruct (IH (S n) I1) as [R2 HE]; [intros s1 c0 A; exact (HP s1 c0 (AT s1 c0 A))|].
    split; [exact (Rtrans _ _ _ R2 R1)|]. cbn [length].
    intros ev [<-|Hi].
    + exists st, n, o, o1, t. split; [exact A0|]. split; [reflexivity|]. split; [exact EX|]. split; [lia|]. split; [exact HI|]. split; [exact I1|]. split; [exact E|].
      split; [exact R2|exact (Rtrans _ _ _ R2 R1)].
    + destruct (HE ev Hi) as (st2 & m & o2 & o3 & t0 & A & EN & Q1 & Q0 & Q2 & Q3 & Q4 & Q5). exists st2, m, o2, o3, t0.
      split; [exact (AT _ _ A)|]. split; [rewrite EN; exact (update_n64 dotf st c st1 (s, q) U)|]. split; [exact Q1|]. split; [lia|]. auto.
Qed.
End DCn.

Lemma scaling_report g cost u x t u' c v : @optscaling_call b64 FNum (cycles_of g) cost u x t = Ok (u', (c, Some v)) ->
  v = fsub (x 0%nat) (x 1%nat) /\ Bleb fzero (fsub v t) = false.
Proof.
  unfold optscaling_call. change (@nleb b64 FNum nzero (nsub (nsub (x 0%nat) (x 1%nat)) t)) with (Bleb fzero (fsub (fsub (x 0%nat) (x 1%nat)) t)).
  destruct (Bleb fzero (fsub (fsub (x 0%nat) (x 1%nat)) t)) eqn:E; [intros H; congruence|]. intros H. apply bind_ok in H as ([u1 [c1|]] & _ & H); [congruence|].
  change (@nsub b64 FNum (x 0%nat) (x 1%nat)) with (fsub (x 0%nat) (x 1%nat)) in H.
  assert (v = fsub (x 0%nat) (x 1%nat)) by congruence. subst v. auto.
Qed.
Lemma spread_val (a b : b64) B : pow2 (-800) <= B <= pow2 800 -> is_finite a = true -> is_finite b = true -> Rabs (B2R a) <= B -> Rabs (B2R b) <= B ->
  is_finite (fsub a b) = true /\ Rabs (B2R (fsub a b) - (B2R a - B2R b)) <= pow2 (-51) * B /\ Rabs (B2R (fsub a b)) <= 3 * B.
Proof.
  intros HB Fa Fb Ha Hb. assert (P := bpow_gt_0 radix2 (-800)). 
  assert (L1 : pow2 (-900) <= 2 * B) by (assert (pow2 (-900) <= pow2 (-800)) by (apply bpow_le; lia); lra).
  assert (L2 : 2 * B <= pow2 900).
  { apply Rle_trans with (pow2 1 * pow2 800); [change (pow2 1) with 2; lra|]. rewrite <- bpow_plus. apply bpow_le. lia. }
  destruct (sub_weight a b (2 * B) Fa Fb (conj L1 L2) ltac:(lra)) as (F & E & _). split; [exact F|].
  assert (E51 : pow2 (-51) = 2 * pow2 (-52)) by (change 2 with (pow2 1); rewrite <- bpow_plus; reflexivity).
  rewrite E51. split; [lra|].
  assert (Q : pow2 (-52) <= / 4) by (change (/ 4) with (pow2 (-2)); apply bpow_le; lia). assert (Q0 := bpow_gt_0 radix2 (-52)).
  assert (pow2 (-52) * (2 * B) <= / 4 * (2 * B)) by (apply Rmult_le_compat_r; lra).
  apply Rabs_le. apply Rabs_le_inv in E. apply Rabs_le_inv in Ha. apply Rabs_le_inv in Hb. lra.
Qed.
Lemma not_leb_sub (a b : b64) B : pow2 (-800) <= B <= pow2 800 -> is_finite a = true -> is_finite b = true -> Rabs (B2R a) <= B -> Rabs (B2R b) <= B ->
  Bleb fzero (fsub a b) = false -> B2R a < B2R b.
Proof.
  intros HB Fa Fb Ha Hb H. destruct (spread_val a b B HB Fa Fb Ha Hb) as (F & _ & _). destruct (fsub_fin a b F) as (_ & _ & E).
  rewrite (Bleb_correct 53 1024) in H by (exact F || reflexivity). rewrite E in H. change (B2R fzero) with 0 in H.
  destruct (Rle_bool_spec 0 (rnd (B2R a - B2R b))) as [?|L]; [discriminate|].
  apply Rnot_le_lt. intros L2. assert (0 <= rnd (B2R a - B2R b)); [|lra].
  rewrite <- (round_0 radix2 (FLT_exp (-1074) 53) ZnearestE). apply round_le; try typeclasses eauto. lra.
Qed.

(** room that a pair must leave inside the attainable set and below the returned spread *)
Definition scaling_margin (N h L : R) : R := (N + 3) * pow2 (-50) * L + 80 * h * L.

Theorem C170_scaling64_nosoln h M G X W B dotf ltb tneq g cost max_it tol u w e t tr u' st' xb t' info :
  graph_ok g -> sym_graph (g_edges g) (RC cost) -> no_loops (g_edges g) ->
  (Z.of_nat (length (g_nodes g)) <= 2 ^ 30)%Z -> (Z.of_nat (max_it * passes g) <= 2 ^ 49)%Z ->
  (forall v, is_finite (u v) = true /\ Rabs (B2R (u v)) <= B) -> is_finite t = true -> Rabs (B2R t) <= B ->
  fdot_any dotf -> built64 e -> e_n e = 2%nat -> pow2 (-700) <= B <= pow2 700 -> X <= B ->
  let omega := scaling_omega64 (fun c => (fst c, BScalar (snd c))) g cost in
  cutting_plane_dc (@ell_space b64 (FNumD dotf)) ltb tneq omega max_it tol u (w, e) t = Ok (tr, u', st', (xb, t', info)) ->
  cstatus info = nosoln ->
  single_scaled h M G X W (asked64_dc (@ell_space b64 (FNumD dotf)) omega u (w, e) t tr) ->
  (forall d, In d (g_edges g) -> is_finite (cost d) = true /\ Rabs (B2R (cost d)) + X <= B) ->
  let m := scaling_margin (INR (length (g_nodes g))) h ((1 + 4 * INR (max_it * passes g)) * B) in
  forall z, mem64 (w, e) z ->
  ~ cube_in 2 (INR (num_iters info) * drift64 2 h W X)
      (fun y => attainable (g_edges g) (RC cost) (arr2 (y 0%nat - m) (y 1%nat + m)) /\ y 0%nat - y 1%nat + m <= B2R t') z.
Proof.
  intros Hg Hsym Hnl HN Hk Hu Ft Rt HD HB En HB7 HXB omega Hrun HNS HS Hcost m z Hz.
  set (K := fun y : nat -> R => attainable (g_edges g) (RC cost) (arr2 (y 0%nat - m) (y 1%nat + m)) /\ y 0%nat - y 1%nat + m <= B2R t').
  rewrite <- En.
  apply (C153_dc_nosoln h M G X W dotf ltb tneq omega max_it tol u w e t tr u' st' xb t' info K HD HB Hrun HNS HS); [|exact Hz].
  destruct (dc_spec _ _ _ _ _ _ _ _ _ _ _ _ _ _ _ Hrun) as (HR & _ & _ & [_ Hlen] & _).
  assert (HB8 : pow2 (-800) <= B <= pow2 800).
  { split; [apply Rle_trans with (pow2 (-700))|apply Rle_trans with (pow2 700)]; try (apply bpow_le; lia); lra. }
  assert (B0 : 0 < B) by (assert (P := bpow_gt_0 radix2 (-700)); lra).
  set (KK := INR (max_it * passes g)) in *. set (L := (1 + 4 * KK) * B) in *.
  assert (K0 : 0 <= KK) by apply pos_INR.
  assert (K1 : KK <= 562949953421312) by (unfold KK; rewrite INR_IZR_INZ; apply IZR_le; lia).
  assert (LB : B <= L) by (unfold L; nra).
  assert (L8 : pow2 (-800) <= L <= pow2 800).
  { split; [lra|]. apply Rle_trans with (pow2 60 * pow2 700).
    - unfold L. apply Rmult_le_compat; [lra|lra| |apply HB7]. change (pow2 60) with 1152921504606846976. lra.
    - rewrite <- bpow_plus. apply bpow_le. lia. }
  set (P := fun x : nat -> b64 => forall i, (i < 2)%nat -> is_finite (x i) = true /\ Rabs (B2R (x i)) <= X).
  assert (PD : forall x Bx, P x -> B <= Bx -> pow2 (-800) <= Bx <= pow2 800 -> scaling_data (g_edges g) cost x Bx).
  { intros x Bx Px H1 H2. destruct (Px 0%nat ltac:(lia)) as [F0 X0]. destruct (Px 1%nat ltac:(lia)) as [F1 X1].
    split; [exact F0|]. split; [exact F1|]. split; [exact H2|]. intros d Hd. destruct (Hcost d Hd) as [F2 X2]. split; [exact F2|]. split; lra. }
  set (I := fun (n : nat) (o : nat -> b64) (t0 : b64) => ((n <= max_it)%nat -> labels B (n * passes g) o) /\ is_finite t0 = true /\ Rabs (B2R t0) <= 3 * B).
  assert (B38 : pow2 (-800) <= 3 * B <= pow2 800).
  { split; [lra|]. apply Rle_trans with (pow2 2 * pow2 700); [change (pow2 2) with 4; lra|]. rewrite <- bpow_plus. apply bpow_le. lia. }
  assert (SV : forall x, P x -> is_finite (fsub (x 0%nat) (x 1%nat)) = true /\
     Rabs (B2R (fsub (x 0%nat) (x 1%nat)) - (B2R (x 0%nat) - B2R (x 1%nat))) <= pow2 (-51) * B /\ Rabs (B2R (fsub (x 0%nat) (x 1%nat))) <= 3 * B).
  { intros x Px. destruct (Px 0%nat ltac:(lia)) as [F0 X0]. destruct (Px 1%nat ltac:(lia)) as [F1 X1]. apply spread_val; try assumption; lra. }
  assert (ST : forall n o x t0 o1 c t1, I n o t0 -> P x -> omega o x t0 = Ok (o1, (c, t1)) -> I (S n) o1 (best t0 t1) /\ B2R (best t0 t1) <= B2R t0).
  { intros n o x t0 o1 c t1 (I1 & I2 & I3) Px Ho. apply omega64_call in Ho as (cu & Ho & _).
    assert (IL : (S n <= max_it)%nat -> labels B (S n * passes g) o1).
    { intros Hn. cbn [mult]. rewrite Nat.add_comm. eapply scaling_call_labels; [exact Hg|apply (PD x B Px); [lra|exact HB8]|exact Hnl| |apply I1; lia|exact Ho].
      replace (n * passes g + passes g)%nat with (S n * passes g)%nat by (cbn; lia).
      assert (S n * passes g <= max_it * passes g)%nat by (apply Nat.mul_le_mono_r; lia). lia. }
    destruct t1 as [v|]; cbn [best]; [|split; [split; [exact IL|auto]|lra]].
    apply scaling_report in Ho as [-> Hle]. destruct (SV x Px) as (F & _ & S3).
    split; [split; [exact IL|auto]|]. assert (A := not_leb_sub _ _ (3 * B) B38 F I2 S3 I3 Hle). lra. }
  destruct (dc_events_n dotf omega I P (fun a b => B2R a <= B2R b) (fun a => Rle_refl _) (fun a b c H1 H2 => Rle_trans _ _ _ H1 H2) ST _ _ _ _ _ _ _ HR 0%nat) as [_ HE].
  { split; [|split; [exact Ft|lra]]. intros _ v. cbn [mult INR]. destruct (Hu v) as [F V]. split; [exact F|lra]. }
  { assert (PN : forall st1 cu, asked64_dc (@ell_space b64 (FNumD dotf)) omega u (w, e) t tr st1 cu -> e_n (snd st1) = 2%nat).
    { intros st1 cu (u1 & ev & u2 & o2 & t2 & _ & _ & Hr). rewrite <- En. change e with (snd (w, e)). clear - Hr.
      remember (w, e) as st eqn:Est. clear Est. induction Hr as [|? ? ? ? ? ? ? ? ? ? ? ? ? E U Hr IH]; [reflexivity|]. rewrite IH. exact (update_n64 dotf _ _ _ _ U). }
    intros st1 cu HA i Hi. destruct (HS st1 cu HA) as (g1 & b1 & _ & S1 & _). assert (E2 := PN st1 cu HA). destruct st1 as [w1 e1]. cbn [fst snd] in *.
    destruct S1 as (_ & _ & _ & Sx & _). apply Sx. lia. }
  intros ev g0 b y Hin Ec [Y1 Y2]. destruct (HE ev Hin) as (st1 & n & o1 & o2 & t0 & HA & En1 & Ex & Hn & (I1 & I2 & I3) & (J1 & _ & _) & Ho & R1 & R2).
  destruct (HS st1 _ HA) as (g1 & b1 & Eg & S1 & _). assert (g1 = g0) by congruence. assert (b1 = b) by congruence. subst g1 b1. clear Eg.
  destruct (scaled_proper _ _ _ _ _ _ _ S1) as (_ & Hh & HX0 & Hb0).
  assert (Px : P (d_x ev)).
  { destruct st1 as [w1 e1]. cbn [fst snd] in *. destruct S1 as (_ & _ & _ & Sx & _). intros i Hi. rewrite Ex. apply Sx. lia. }
  assert (Fb : is_finite b = true) by (destruct st1 as [w1 e1]; apply S1).
  rewrite Ec in Ho. apply omega64_call in Ho as ([gc fc] & Ho & Ecu). cbn [fst snd] in Ecu. assert (gc = g0) by congruence. assert (fc = b) by congruence. subst gc fc. clear Ecu.
  destruct (SV (d_x ev) Px) as (Fs & Es & Bs). set (s := fsub (d_x ev 0%nat) (d_x ev 1%nat)) in *.
  assert (Hnan : forall v, is_nan (o1 v) = false).
  { intros v. destruct (I1 ltac:(lia) v) as [F _]. destruct (o1 v); cbn in F |- *; congruence. }
  assert (Hl2 : forall v, In v (g_nodes g) -> is_finite (o2 v) = true /\ Rabs (B2R (o2 v)) <= L).
  { intros v _. destruct (J1 ltac:(lia) v) as [F V]. split; [exact F|]. eapply Rle_trans; [exact V|]. unfold L.
    apply Rmult_le_compat_r; [lra|]. assert (INR (S n * passes g) <= KK) by (apply le_INR, Nat.mul_le_mono_r; lia). lra. }
  destruct (C169_scaling64_oracle g cost o1 (d_x ev) t0 o2 g0 b (d_t1 ev) L Hg HN Hnan (PD _ _ Px LB L8) Hsym Hnl Ho) as [_ Hor]. fold s in Hor.
  cbv beta in R1, R2. apply Rabs_le_inv in Es. apply Rabs_le_inv in Bs. apply Rabs_le_inv in I3.
  assert (P52 := bpow_gt_0 radix2 (-52)).
  assert (E51 : pow2 (-51) = 2 * pow2 (-52)) by (change 2 with (pow2 1); rewrite <- bpow_plus; reflexivity).
  assert (E50 : pow2 (-50) = 4 * pow2 (-52)) by (change 4 with (pow2 2); rewrite <- bpow_plus; reflexivity).
  assert (N0 : 0 <= INR (length (g_nodes g))) by apply pos_INR.
  assert (HL : 0 <= h * (L - B)) by (apply Rmult_le_pos; lra).
  assert (QL : 0 < pow2 (-52) * L) by (apply Rmult_lt_0_compat; lra). assert (QB : pow2 (-52) * B <= pow2 (-52) * L) by (apply Rmult_le_compat_l; lra).
  assert (M1 : m = 4 * INR (length (g_nodes g)) * (pow2 (-52) * L) + 12 * (pow2 (-52) * L) + 80 * (h * L)) by (unfold m, scaling_margin; rewrite E50; ring).
  assert (NQ : 0 <= INR (length (g_nodes g)) * (pow2 (-52) * L)) by (apply Rmult_le_pos; lra).
  assert (hL : 0 <= h * L) by (apply Rmult_le_pos; lra).
  unfold holds64. rewrite En.
  destruct Hor as [(Hle & G0 & G1 & Ef & Et)|(Hle & Hor)].
  - assert (Ds : is_finite (fsub s t0) = true /\ Rabs (B2R (fsub s t0) - (B2R s - B2R t0)) <= pow2 (-51) * (3 * B) /\ Rabs (B2R (fsub s t0)) <= 3 * (3 * B)).
    { apply spread_val; try assumption; apply Rabs_le; lra. }
    destruct Ds as (_ & D1 & D2). rewrite <- Ef in D1, D2. apply Rabs_le_inv in D1. apply Rabs_le_inv in D2.
    rewrite dot2. cbv beta. rewrite G0, G1.
    assert (B2R b * h <= 9 * B * h) by (apply Rmult_le_compat_r; lra). rewrite E51 in *. lra.
  - destruct (Hor Hl2) as [(Et & G0 & G1 & Ef & _)|(Et & _ & _ & _ & a & c & Hac & G0 & G1 & [_ F3] & Hcut)].
    + rewrite Et in R1. cbn [best] in R1. rewrite dot2. cbv beta. rewrite G0, G1, Ef. rewrite E51 in *. lra.
    + specialize (Hcut _ Y1). rewrite dot2 in Hcut |- *. cbv beta in *. cbn [arr2] in Hcut. rewrite G0, G1 in Hcut |- *.
      set (A := INR (a + c)) in *. assert (EA : A = INR a + INR c) by apply plus_INR.
      assert (A1 : 1 <= A) by (apply (le_INR 1); lia). assert (A2 : A <= INR (length (g_nodes g))) by (apply le_INR; lia).
      assert (B2R b * h <= 3 * A * L * h) by (apply Rmult_le_compat_r; lra).
      assert (AM : A * ((A + 3) * (pow2 (-52) * L) + 24 * (h * L)) <= A * m).
      { apply Rmult_le_compat_l; [lra|]. assert ((A + 3) * (pow2 (-52) * L) <= (INR (length (g_nodes g)) + 3) * (pow2 (-52) * L)) by (apply Rmult_le_compat_r; lra). lra. }
      assert (Em : A * m = INR a * m + INR c * m) by (rewrite EA; ring). lra.
Qed.
Print Assumptions C170_scaling64_nosoln.

(** Non-vacuity: two nodes, one symmetric entry 1, the unit disc around (-1, 1).  The two edges form a cycle of weight
    x0 - x1 = -2, and the cut z1 <= z0 misses the disc.  The pair (4, -4) has room on all sides but lies outside. *)
Definition pg : digraph := {| g_nodes := [0; 1]%nat; g_edges := [(0, 1); (1, 0)]%nat |}.
Definition om170 := scaling_omega64 (fun c : (nat -> b64) * b64 => (fst c, BScalar (snd c))) pg scost64.
Definition w170 : memory b64 := fun _ => sx64 (-1) 1.
Definition info170 (x : res (ell b64)) :=
  match x with
  | Ok e => match om170 (fun _ => fzero) (w170 (e_xc e)) (fmake 10 0) with
    | Ok (o1, ((g, BScalar b), None)) => match @ell_update b64 (FNumD fdot_seq) (w170, e) (g, BScalar b) with
      | Ok (_, (s, _)) => Some (e_n e, ell2_of e w170, map B2SF [g 0%nat; g 1%nat; b], s)
      | Raise _ => None end
    | _ => None end
  | Raise _ => None end.
Example C170_ex : exists (e : ell b64) tr u' st' xb info z,
  let h := pow2 (-37) in let W := 2 in let B := 16 in
  graph_ok pg /\ sym_graph (g_edges pg) (RC scost64) /\ no_loops (g_edges pg) /\ fdot_any fdot_seq /\ built64 e /\ e_n e = 2%nat /\
  cutting_plane_dc (@ell_space b64 (FNumD fdot_seq)) (fun _ _ => false) (fun a b => negb (feqb a b)) om170 6 fzero (fun _ => fzero) (w170, e) (fmake 10 0)
    = Ok (tr, u', st', (xb, fmake 10 0, info)) /\
  cstatus info = nosoln /\ num_iters info = 1%nat /\
  single_scaled h 1 1 1 W (asked64_dc (@ell_space b64 (FNumD fdot_seq)) om170 (fun _ => fzero) (w170, e) (fmake 10 0) tr) /\
  (forall d, In d (g_edges pg) -> is_finite (scost64 d) = true /\ Rabs (B2R (scost64 d)) + 1 <= B) /\
  mem64 (w170, e) z /\
  let m := scaling_margin (INR (length (g_nodes pg))) h ((1 + 4 * INR (6 * passes pg)) * B) in
  INR (num_iters info) * drift64 2 h W 1 <= / 16 /\
  cube_in 2 (/ 16) (fun y => attainable (g_edges pg) (RC scost64) (arr2 (y 0%nat - m) (y 1%nat + m)) /\ y 0%nat - y 1%nat + m <= B2R (fmake 10 0))
    (arr2 4 (-4)).
Proof.
  assert (X : info170 (@ell_init b64 FNum (VScalar (fmake 1 0)) 2 0%nat) =
    Some (2%nat, map B2SF [fmake 1 0; fmake 1 0; fzero; fzero; fmake 1 0; fmake (-1) 0; fmake 1 0], map B2SF [fmake (-1) 0; fmake 1 0; fmake 2 0], nosoln)) by (vm_compute; reflexivity).
  revert X. destruct (@ell_init b64 FNum (VScalar (fmake 1 0)) 2 0%nat) as [e|] eqn:E; [|discriminate]. unfold info170.
  match goal with |- match ?u with Ok _ => _ | Raise _ => _ end = _ -> _ => destruct u as [[o' [[g [ep|?]] [t1|]]]|] eqn:L; try discriminate end.
  match goal with |- match ?u with Ok _ => _ | Raise _ => _ end = _ -> _ => destruct u as [[st2 [s tsq]]|] eqn:U; [|discriminate] end. intros X.
  unfold ell2_of in X. cbn [map] in X.
  assert (En : e_n e = 2%nat) by congruence. assert (Es : s = nosoln) by congruence.
  assert (I : forall x y : b64, B2SF x = B2SF y -> x = y) by (intros x y; apply B2SF_inj).
  assert (X1 : e_kappa e = fmake 1 0) by (apply I; congruence).
  assert (X2 : e_Q e 0%nat 0%nat = fmake 1 0) by (apply I; congruence).
  assert (X3 : e_Q e 0%nat 1%nat = fzero) by (apply I; congruence).
  assert (X4 : e_Q e 1%nat 0%nat = fzero) by (apply I; congruence).
  assert (X5 : e_Q e 1%nat 1%nat = fmake 1 0) by (apply I; congruence).
  assert (G0 : g 0%nat = fmake (-1) 0) by (apply I; congruence).
  assert (G1 : g 1%nat = fmake 1 0) by (apply I; congruence).
  assert (G2 : ep = fmake 2 0) by (apply I; congruence). clear X I. subst s ep.
  assert (RO : B2R (fmake 1 0) = 1) by (rewrite fmakeR by lia; change (pow2 0) with 1; ring).
  assert (RM : B2R (fmake (-1) 0) = -1) by (rewrite fmakeR by lia; change (pow2 0) with 1; ring).
  assert (RT : B2R (fmake 2 0) = 2) by (rewrite fmakeR by lia; change (pow2 0) with 1; ring).
  assert (R10 : B2R (fmake 10 0) = 10) by (rewrite fmakeR by lia; change (pow2 0) with 1; ring).
  assert (S1 : scaled64 (bpow radix2 (-37)) 1 1 1 (w170, e) g (fmake 2 0)).
  { apply scaled_diag2g with (q0 := fmake 1 0) (q1 := fmake 1 0); rewrite ?X1; try assumption; try reflexivity; try (rewrite ?RO, ?RT; lra).
    - intros i Hi. destruct i as [|[|i]]; [| |lia]; cbn [w170 sx64]; rewrite ?RO, ?RM; (split; [reflexivity|]); apply Rabs_le; lra.
    - intros i Hi. destruct i as [|[|i]]; [| |lia]; rewrite ?G0, ?G1, ?RO, ?RM; (split; [reflexivity|]); apply Rabs_le; lra.
    - rewrite G0, G1, RO, RM. lra. }
  set (ev := {| d_x := w170 (e_xc e); d_t := fmake 10 0; d_cut := (g, BScalar (fmake 2 0)); d_t1 := None; d_status := nosoln; d_tsq := tsq |}).
  exists e, [ev], o', st2, None, {| feasible := false; num_iters := 1; cstatus := nosoln |}, (fun i => B2R (w170 (e_xc e) i)). cbv zeta.
  split. { intros u v H. cbn in H. repeat destruct H as [H|H]; try (injection H as <- <-; cbn; tauto); contradiction. }
  split. { intros i j H. split; [cbn in H |- *; intuition congruence|]. unfold scost64. cbn [fst snd]. rewrite (Nat.add_comm j i). reflexivity. }
  split. { intros i H. cbn in H. repeat destruct H as [H|H]; try (injection H as <- H; discriminate H); contradiction. }
  split; [exact fnum_dot_any|]. split; [exists (VScalar (fmake 1 0)), 0%nat, e; rewrite En; split; [exact E|auto]|].
  split; [exact En|]. split.
  { unfold cutting_plane_dc. cbn [dc_loop]. change (centre (@ell_space b64 (FNumD fdot_seq)) (w170, e)) with (w170 (e_xc e)). rewrite L. cbn [bind fst snd sp_update ell_space]. rewrite U.
    cbn [bind status_eqb negb]. reflexivity. }
  split; [reflexivity|]. split; [reflexivity|]. split.
  { intros st1 c (tr1 & ev1 & tr2 & o1 & t2 & Et & Ec & HR). destruct tr1 as [|e1 tr1]; [|destruct tr1; discriminate Et].
    inversion HR; subst. exists g, (fmake 2 0). split; [cbn [app] in Et; assert (Ee : ev1 = ev) by congruence; rewrite Ee; reflexivity|]. split; [exact S1|]. cbn [snd]. rewrite X1, RO. lra. }
  split.
  { intros d Hd. cbn in Hd. destruct Hd as [<-|[<-|[]]]; unfold scost64; cbn [fst snd plus Z.of_nat Pos.of_succ_nat]; rewrite RO; (split; [reflexivity|]); rewrite Rabs_right; lra. }
  split.
  { unfold mem64. rewrite En. exists (fun _ => 0). split; [intros i Hi; unfold mvr, dot; cbn [rsum]; ring|].
    unfold bf, dot, mvr. cbn [rsum]. rewrite X1, RO. lra. }
  assert (A1 : pow2 (-37) <= / 137438953472) by (right; reflexivity). assert (A0 := bpow_gt_0 radix2 (-37)).
  assert (A2 : pow2 (-50) <= / 137438953472) by (change (/ 137438953472) with (pow2 (-37)); apply bpow_le; lia). assert (A3 := bpow_gt_0 radix2 (-50)).
  split.
  { cbn [num_iters]. unfold drift64. change (INR 1) with 1. change (IZR (Z.of_nat 2)) with 2.
    assert (Q1 : sqrt (2 * pow2 (-37) * 2) <= / 131072).
    { rewrite <- (sqrt_square (/ 131072)) by lra. apply sqrt_le_1; lra. }
    assert (Q2 : 0 <= sqrt 2 <= 2) by (split; [apply sqrt_pos|]; rewrite <- (sqrt_square 2) at 2 by lra; apply sqrt_le_1; lra).
    assert (Q3 : pow2 (-37) * sqrt 2 <= / 137438953472 * 2) by (apply Rmult_le_compat; lra).
    assert (Q4 : pow2 (-53) <= / 1024) by (change (/ 1024) with (pow2 (-10)); apply bpow_le; lia). lra. }
  intros y Hy. set (m := scaling_margin _ _ _).
  assert (Hm : 0 <= m <= 1).
  { unfold m, scaling_margin. change (INR (length (g_nodes pg))) with 2. change (6 * passes pg)%nat with 24%nat. replace (INR 24) with 24 by (cbn; ring). lra. }
  assert (H0 := Hy 0%nat ltac:(lia)). assert (H1 := Hy 1%nat ltac:(lia)). cbn [arr2] in H0, H1. apply Rabs_le_inv in H0. apply Rabs_le_inv in H1.
  split; [|rewrite R10; lra].
  exists (fun _ => 0). intros i j Hij Hin. cbn in Hin. destruct Hin as [Hin|[Hin|[]]]; [|injection Hin as <- <-; lia]. injection Hin as <- <-.
  unfold scost64. cbn [fst snd plus Z.of_nat Pos.of_succ_nat arr2]. rewrite RO. lra.
Qed.
