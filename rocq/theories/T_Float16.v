(** Property theorems about optscaling_oracle in binary64, alone and under cutting_plane_dc (C169). *)
From Coq Require Import ZArith Reals Lra Lia Bool List SpecFloat.
From Flocq Require Import Core.Core IEEE754.BinarySingleNaN.
From Verif Require Import Base M_Net S_LinAlg P_LinAlg S_Net P_Net T_Net M_Drivers S_Drivers T_Drivers M_Ell M_Float P_Float P_Float2 S_Float2 P_FSum P_NetF T_Float M_FloatN S_Float T_Float3 T_Float5 T_Float13.
Import ListNotations.
Local Open Scope R_scope.

(** the numbers of one query: finite, with |cost| + |x_i| <= B *)
Definition scaling_data (E : list edge) (cost : edge -> b64) (x : nat -> b64) (B : R) : Prop :=
  is_finite (x 0%nat) = true /\ is_finite (x 1%nat) = true /\ pow2 (-800) <= B <= pow2 800 /\
  forall e, In e E -> is_finite (cost e) = true /\
    Rabs (B2R (cost e)) + Rabs (B2R (x 0%nat)) <= B /\ Rabs (B2R (cost e)) + Rabs (B2R (x 1%nat)) <= B.
Definition sw (cost : edge -> b64) (x : nat -> b64) (e : edge) : b64 :=
  if Nat.ltb (fst e) (snd e) then fsub (x 0%nat) (cost e) else fsub (cost e) (x 1%nat).
Notation RC cost := (fun e => B2R (cost e)).
Notation RV x := (fun i : nat => B2R (x i)).

Lemma sub_weight (a b : b64) B : is_finite a = true -> is_finite b = true -> pow2 (-900) <= B <= pow2 900 ->
  Rabs (B2R a) + Rabs (B2R b) <= B ->
  is_finite (fsub a b) = true /\ Rabs (B2R (fsub a b) - (B2R a - B2R b)) <= pow2 (-52) * B /\ Rabs (B2R (fsub a b)) <= 2 * B.
Proof.
  intros Fa Fb [HB1 HB2] HB. assert (P := bpow_gt_0 radix2 (-900)). assert (B0 : 0 < B) by lra.
  assert (T := tiny B (-1075) HB1 ltac:(lia)). assert (Q := p100). rewrite p53 in Q.
  assert (BG := big B 0 HB2 ltac:(lia) ltac:(lia)). change (pow2 0) with 1 in BG.
  assert (P52 : pow2 (-52) = 2 * / 9007199254740992) by (unfold bpow; cbn; lra).
  assert (Hs : Rabs (B2R a - B2R b) <= B).
  { unfold Rminus. eapply Rle_trans; [apply Rabs_triang|]. rewrite Rabs_Ropp. lra. }
  assert (T2 : pow2 (-1075) <= / 9007199254740992 * / 1048576 * B).
  { eapply Rle_trans; [exact T|]. apply Rmult_le_compat_r; lra. }
  destruct (fsub_rnd a b Fa Fb) as [Es Fs]; [lra|].
  assert (E2 := rnd_rel (B2R a - B2R b)). rewrite <- Es, p53 in E2.
  set (w := B2R (fsub a b)) in *. split; [exact Fs|]. rewrite P52.
  assert (Rabs w <= Rabs (B2R a - B2R b) + Rabs (w - (B2R a - B2R b))).
  { replace w with ((B2R a - B2R b) + (w - (B2R a - B2R b))) at 1 by ring. apply Rabs_triang. }
  split; lra.
Qed.
Lemma scaling_weight E cost x B e : scaling_data E cost x B -> In e E ->
  is_finite (sw cost x e) = true /\ Rabs (B2R (sw cost x e) - sc_ev (RC cost) e (RV x)) <= pow2 (-52) * B /\
  Rabs (B2R (sw cost x e)) <= 2 * B.
Proof.
  intros (F0 & F1 & HB8 & Hd) He. apply range8 in HB8. destruct (Hd e He) as (Fc & B1 & B2). unfold sw, sc_ev.
  destruct (Nat.ltb (fst e) (snd e)); apply sub_weight; try assumption; lra.
Qed.
Lemma scaling_eval64 E cost x e : no_loops E -> In e E -> @scaling_eval b64 FNum cost e x = Ok (sw cost x e).
Proof.
  intros Hl He. destruct e as [i j]. unfold scaling_eval, sw. cbn [fst snd].
  destruct (Nat.eqb_spec i j) as [->|_]; [destruct (Hl _ He)|]. destruct (Nat.ltb i j); reflexivity.
Qed.

(** edges above and below the diagonal *)
Definition up (c : list edge) : nat := length (filter (fun e => Nat.ltb (fst e) (snd e)) c).
Definition down (c : list edge) : nat := length (filter (fun e => negb (Nat.ltb (fst e) (snd e))) c).
Lemma up_down c : (up c + down c = length c)%nat.
Proof.
  induction c as [|[i j] c IH]; [reflexivity|]. unfold up, down in *. cbn [filter fst snd length].
  destruct (Nat.ltb i j); cbn [negb filter length]; lia.
Qed.
Lemma grad_counts x : forall c (acc : nat -> b64) a b, (forall e, In e c -> fst e <> snd e) ->
  (Z.of_nat (a + b + length c) <= 2 ^ 30)%Z ->
  is_finite (acc 0%nat) = true -> is_finite (acc 1%nat) = true -> B2R (acc 0%nat) = INR a -> B2R (acc 1%nat) = - INR b ->
  exists s, M_Net.lsum (fun (p q : nat -> b64) i => @nadd b64 FNum (p i) (q i)) (fun e => scaling_grad e x) c acc = Ok s /\
    is_finite (s 0%nat) = true /\ is_finite (s 1%nat) = true /\
    B2R (s 0%nat) = INR (a + up c) /\ B2R (s 1%nat) = - INR (b + down c).
Proof.
  assert (Hbig : forall k, (Z.of_nat k <= 2 ^ 30)%Z -> fmt (INR k) /\ Rabs (INR k) < pow2 1024 /\ 0 <= INR k <= 1073741824).
  { intros k Hk. rewrite INR_IZR_INZ. assert (H1 : IZR (Z.of_nat k) <= IZR (2 ^ 30)) by (apply IZR_le; exact Hk).
    assert (H2 : 0 <= IZR (Z.of_nat k)) by (apply IZR_le; lia). change (IZR (2 ^ 30)) with 1073741824 in H1.
    split; [apply fmt_Z; lia|]. split; [|lra]. rewrite Rabs_right by lra. apply Rle_lt_trans with (pow2 30); [|apply bpow_lt; lia].
    change (pow2 30) with 1073741824. lra. }
  induction c as [|e c IH]; intros acc a b Hl Hk F0 F1 E0 E1; cbn [M_Net.lsum].
  - exists acc. cbn. rewrite !Nat.add_0_r. auto.
  - assert (He := Hl e (or_introl eq_refl)). destruct e as [i j]. cbn [fst snd] in He. unfold scaling_grad at 1. cbn [length] in Hk.
    destruct (Nat.eqb_spec i j) as [?|_]; [contradiction|]. cbn [bind].
    destruct fone as [E11 F11].
    assert (U : up ((i, j) :: c) = ((if Nat.ltb i j then 1 else 0) + up c)%nat) by (unfold up; cbn [filter fst snd]; destruct (Nat.ltb i j); reflexivity).
    assert (D : down ((i, j) :: c) = ((if Nat.ltb i j then 0 else 1) + down c)%nat) by (unfold down; cbn [filter fst snd]; destruct (Nat.ltb i j); reflexivity).
    assert (Hz : forall y : b64, is_finite y = true -> B2R (fadd y fzero) = B2R y /\ is_finite (fadd y fzero) = true).
    { intros y Fy. assert (Z0 : B2R fzero = 0) by reflexivity. destruct (fadd_exact y fzero Fy eq_refl) as [A1 A2].
      - rewrite Z0, Rplus_0_r. apply fmt_b64.
      - rewrite Z0, Rplus_0_r. apply abs_B2R_lt_emax.
      - rewrite Z0, Rplus_0_r in A1. auto. }
    destruct (Nat.ltb i j).
    + destruct (Hbig (a + 1)%nat ltac:(lia)) as (G1 & G2 & _). rewrite plus_INR in G1, G2. cbn [INR] in G1, G2.
      destruct (fadd_exact (acc 0%nat) (fmake 1 0) F0 F11) as [A1 A2]; [rewrite E0, E11; assumption..|].
      destruct (Hz (acc 1%nat) F1) as [A3 A4].
      destruct (IH (fun i => @nadd b64 FNum (acc i) (arr2 none nzero i)) (a + 1)%nat b) as (s & Es & S1 & S2 & S3 & S4).
      * intros e He'. apply Hl. right. exact He'.
      * lia.
      * exact A2.
      * exact A4.
      * change (B2R (fadd (acc 0%nat) (fmake 1 0)) = INR (a + 1)). rewrite A1, E0, E11, plus_INR. reflexivity.
      * change (B2R (fadd (acc 1%nat) fzero) = - INR b). rewrite A3. exact E1.
      * exists s. split; [exact Es|]. rewrite U, D. split; [exact S1|]. split; [exact S2|].
        split; [rewrite S3; f_equal; lia|rewrite S4; do 2 f_equal; lia].
    + destruct (Hbig (b + 1)%nat ltac:(lia)) as (G1 & G2 & _). rewrite plus_INR in G1, G2. cbn [INR] in G1, G2.
      assert (E2 : B2R (acc 1%nat) + B2R (Bopp (fmake 1 0)) = - (INR b + 1)) by (rewrite fopp_R, E1, E11; ring).
      destruct (fadd_exact (acc 1%nat) (Bopp (fmake 1 0)) F1) as [A1 A2];
        [rewrite fopp_fin; exact F11|rewrite E2; apply generic_format_opp; assumption|rewrite E2, Rabs_Ropp; assumption|].
      destruct (Hz (acc 0%nat) F0) as [A3 A4].
      destruct (IH (fun i => @nadd b64 FNum (acc i) (arr2 nzero (nopp none) i)) a (b + 1)%nat) as (s & Es & S1 & S2 & S3 & S4).
      * intros e He'. apply Hl. right. exact He'.
      * lia.
      * exact A4.
      * exact A2.
      * change (B2R (fadd (acc 0%nat) fzero) = INR a). rewrite A3. exact E0.
      * change (B2R (fadd (acc 1%nat) (Bopp (fmake 1 0))) = - INR (b + 1)). rewrite A1, E2, plus_INR. reflexivity.
      * exists s. split; [exact Es|]. rewrite U, D. split; [exact S1|]. split; [exact S2|].
        split; [rewrite S3; f_equal; lia|rewrite S4; do 2 f_equal; lia].
Qed.
Lemma total_move (cost : edge -> R) (z x : nat -> R) c :
  total (fun e => sc_ev cost e z) c - total (fun e => sc_ev cost e x) c
  = INR (up c) * (z 0%nat - x 0%nat) - INR (down c) * (z 1%nat - x 1%nat).
Proof.
  induction c as [|[i j] c IH]; [cbn; ring|]. cbn [total].
  assert (U : up ((i, j) :: c) = ((if Nat.ltb i j then 1 else 0) + up c)%nat) by (unfold up; cbn [filter fst snd]; destruct (Nat.ltb i j); reflexivity).
  assert (D : down ((i, j) :: c) = ((if Nat.ltb i j then 0 else 1) + down c)%nat) by (unfold down; cbn [filter fst snd]; destruct (Nat.ltb i j); reflexivity).
  rewrite U, D, !plus_INR. unfold sc_ev at 1 3. cbn [fst snd]. destruct (Nat.ltb i j); cbn [INR]; lra.
Qed.

(** ** C169 *)
Theorem C169_scaling64_oracle :
  forall g cost u x t u' g0 f t1 B, graph_ok g -> (Z.of_nat (length (g_nodes g)) <= 2 ^ 30)%Z ->
  (forall v, is_nan (u v) = false) -> scaling_data (g_edges g) cost x B ->
  sym_graph (g_edges g) (RC cost) -> no_loops (g_edges g) ->
  @optscaling_call b64 FNum (cycles_of g) cost u x t = Ok (u', ((g0, f), t1)) ->
  let s := fsub (x 0%nat) (x 1%nat) in
  (forall v, is_nan (u' v) = false) /\
  ((Bleb fzero (fsub s t) = true /\ B2R (g0 0%nat) = 1 /\ B2R (g0 1%nat) = -1 /\ f = fsub s t /\ t1 = None) \/
   (Bleb fzero (fsub s t) = false /\
    ((forall v, In v (g_nodes g) -> is_finite (u' v) = true /\ Rabs (B2R (u' v)) <= B) ->
     (t1 = Some s /\ B2R (g0 0%nat) = 1 /\ B2R (g0 1%nat) = -1 /\ B2R f = 0 /\
      attainable (g_edges g) (RC cost) (arr2 (B2R (x 0%nat) + pow2 (-50) * B) (B2R (x 1%nat) - pow2 (-50) * B))) \/
     (t1 = None /\ is_finite (g0 0%nat) = true /\ is_finite (g0 1%nat) = true /\ is_finite f = true /\
      exists a b, (1 <= a + b <= length (g_nodes g))%nat /\ B2R (g0 0%nat) = - INR a /\ B2R (g0 1%nat) = INR b /\
        let K := INR (a + b) in
        - (K * (K + 4) * pow2 (-52) * B) <= B2R f <= 3 * K * B /\
        forall z, attainable (g_edges g) (RC cost) z ->
          dot 2 (RV g0) (fun i => z i - B2R (x i)) + B2R f <= K * (K + 3) * pow2 (-52) * B)))).
Proof.
  intros g cost u x t u' g0 f t1 B Hg HN Hu Hdat Hsym Hl H s.
  assert (Hwt := fun e => scaling_weight (g_edges g) cost x B e Hdat).
  destruct Hdat as (F0 & F1 & HB8 & Hd). assert (HB := range8 B HB8).
  assert (B0 : 0 < B) by (assert (P := bpow_gt_0 radix2 (-900)); lra).
  unfold optscaling_call in H. destruct fone as [E11 F11].
  assert (One : B2R (arr2 (A := b64) (H := FNum) none (nopp none) 0%nat) = 1 /\ B2R (arr2 (A := b64) (H := FNum) none (nopp none) 1%nat) = -1).
  { split; [exact E11|]. change (B2R (Bopp (fmake 1 0)) = -1). rewrite fopp_R, E11. ring. }
  change (@nleb b64 FNum nzero (nsub (nsub (x 0%nat) (x 1%nat)) t)) with (Bleb fzero (fsub s t)) in H.
  destruct (Bleb fzero (fsub s t)) eqn:Hst.
  { injection H as <- <- <- <-. split; [exact Hu|]. left. split; [reflexivity|]. split; [apply One|]. split; [apply One|]. split; reflexivity. }
  unfold network_call, cycles_of in H. apply bind_ok in H as ([u1 cut] & H & Hk).
  apply bind_ok in H as ([cs u2] & H & Hc). apply bind_ok in H as ([c d'] & H & Hcs). injection Hcs as <- <-.
  set (w := sw cost x) in *.
  assert (Hwr : forall e, In e (g_edges g) -> scaling_eval cost e x = Ok (w e) /\ is_finite (w e) = true).
  { intros e He. split; [apply (scaling_eval64 (g_edges g)); assumption|apply Hwt, He]. }
  destruct (C127_finder64_outcome g _ w u Hg Hwr Hu) as [(c1 & d1 & Eo & A & Apot & _)|Eo]; [|congruence].
  rewrite H in Eo. assert (c1 = c /\ d1 = d') as [-> ->] by (split; congruence). clear Eo.
  assert (Hlast : u' = d').
  { destruct c as [|e0 c0].
    - injection Hc as <- <-. injection Hk as <- _ _. reflexivity.
    - apply bind_ok in Hc as (f1 & _ & Hc). apply bind_ok in Hc as (g1 & _ & Hc). injection Hc as <- <-.
      injection Hk as <- _ _. reflexivity. }
  rewrite Hlast in *. split; [intros v; apply A|]. right. split; [reflexivity|]. intros Hlab.
  assert (P53 := bpow_gt_0 radix2 (-53)).
  assert (E52 : pow2 (-52) = 2 * pow2 (-53)) by (change 2 with (pow2 1); rewrite <- bpow_plus; reflexivity).
  assert (E50 : pow2 (-50) = 8 * pow2 (-53)) by (change 8 with (pow2 3); rewrite <- bpow_plus; reflexivity).
  assert (HtB : pow2 (-1075) <= pow2 (-53) * B).
  { eapply Rle_trans; [apply (tiny B); [lra|lia]|]. apply Rmult_le_compat_r; [lra|]. apply bpow_le. lia. }
  assert (HB1000 : 2 * B <= pow2 1000).
  { assert (BG := big B 0 (proj2 HB) ltac:(lia) ltac:(lia)). change (pow2 0) with 1 in BG.
    apply Rle_trans with (2 * pow2 900); [lra|]. change (2 * pow2 900) with (pow2 1 * pow2 900). rewrite <- bpow_plus. apply bpow_le. lia. }
  destruct (C127_finder64_weights g _ w u c d' (2 * B) Hg Hwr Hu H) as [_ W2].
  { intros v Hv. destruct (Hlab v Hv). split; [assumption|lra]. }
  { intros e He. apply Hwt, He. }
  { exact HB1000. }
  destruct c as [|e0 c0].
  - left. injection Hc as <- <-. injection Hk as <- <- <-.
    split; [reflexivity|]. split; [apply One|]. split; [apply One|]. split; [reflexivity|].
    apply attainable_iff; [exact Hsym|exact Hl|]. exists (fun v => B2R (d' v)). intros i j Hij.
    specialize (Apot eq_refl i j Hij). destruct (Hg i j Hij) as [Hi Hj].
    destruct (Hlab i Hi) as [Fi Li]. destruct (Hlab j Hj) as [Fj Lj]. destruct (Hwt (i, j) Hij) as (Fw & Ew & Bw). fold w in Fw, Ew, Bw.
    destruct (add_err (2 * B) (d' i) (w (i, j)) Fi Fw ltac:(lra) Bw HB1000) as [Fa Ea].
    rewrite f64_ltb in Apot by assumption. destruct (Rlt_bool_spec (B2R (fadd (d' i) (w (i, j)))) (B2R (d' j))) as [?|Hle]; [discriminate|].
    apply Rabs_le_inv in Ea. apply Rabs_le_inv in Ew. rewrite E52 in *. unfold sc_ev in Ew |- *. cbn [fst snd arr2] in Ew |- *.
    rewrite E50. destruct (Nat.ltb i j); nra.
  - right. set (c := e0 :: c0) in *. destruct (W2 ltac:(discriminate)) as [Hs W]. clear W2.
    assert (Hlen : (length c <= length (g_nodes g))%nat).
    { rewrite <- (rev_length c). apply simple_cycle_length; assumption. }
    assert (Hi : incl c (g_edges g)).
    { destruct Hs as [(_ & s0 & Hs) _]. intros a Ha. apply (walk_incl _ _ _ _ Hs). apply in_rev in Ha. exact Ha. }
    assert (HL : 0 <= INR (length c)) by apply pos_INR.
    apply bind_ok in Hc as (f1 & Hf & Hc). apply bind_ok in Hc as (g1 & Hgr & Hc).
    assert (HB2 : pow2 (-900) <= 2 * B) by lra.
    assert (HB3 : 2 * B <= pow2 900).
    { apply Rle_trans with (pow2 1 * pow2 800); [change (pow2 1) with 2; lra|]. rewrite <- bpow_plus. apply bpow_le. lia. }
    assert (Z0 : Rabs 0 <= INR 0 * (2 * B)) by (rewrite Rabs_R0; cbn [INR]; lra).
    assert (Z1 : Rabs (B2R fzero - 0) <= INR 0 * (INR 0 + 1) * pow2 (-53) * (2 * B)).
    { cbn [B2R fzero INR]. rewrite Rminus_0_r, Rabs_R0. lra. }
    destruct (lsum64 w (fun e => scaling_eval cost e x) (2 * B) HB2 HB3 c fzero 0 0) as (sf & Esf & Fsf & Hsf);
      [|lia|reflexivity|exact Z0|exact Z1|].
    { intros e He. split; [apply Hwr, Hi, He|]. destruct (Hwt e (Hi e He)) as (A1 & _ & A2). split; assumption. }
    destruct (grad_counts x c (fun _ => fzero) 0 0) as (sg & Esg & Fg0 & Fg1 & Eg0 & Eg1); try reflexivity.
    { intros [i j] He. cbn. intros ->. exact (Hl _ (Hi _ He)). }
    { cbn [plus]. lia. }
    { cbn. ring. }
    change (@nzero b64 FNum) with fzero in Hf, Hgr. rewrite Esf in Hf. rewrite Esg in Hgr.
    assert (f1 = sf /\ g1 = sg) as [-> ->] by (split; congruence).
    injection Hc as <- <-. injection Hk as <- <- <-. clear Esf Esg Hf Hgr.
    cbn [plus] in Hsf, Eg0, Eg1.
    split; [reflexivity|].
    change (@nopp b64 FNum) with (@Bopp 53 1024).
    rewrite !fopp_fin, !fopp_R. split; [exact Fg0|]. split; [exact Fg1|]. split; [exact Fsf|].
    assert (Hnear : Rabs (total (fun e => B2R (w e)) c - total (fun e => sc_ev (RC cost) e (RV x)) c) <= INR (length c) * (pow2 (-52) * B)).
    { apply total_near. intros e He. apply Hwt, Hi, He. }
    rewrite Rplus_0_l in Hsf.
    set (L := INR (length c)) in *. assert (L1 : 1 <= L).
    { unfold L, c. cbn [length]. rewrite S_INR. pose proof (pos_INR (length c0)). lra. }
    set (Wc := total (fun e => B2R (w e)) c) in *.
    assert (HWc : Rabs Wc <= L * (2 * B)).
    { unfold Wc, L. clear -Hi Hwt. assert (Hi' : forall e, In e c -> Rabs (B2R (w e)) <= 2 * B) by (intros e He; apply Hwt, Hi, He).
      clear Hi Hwt. induction c as [|e c IH]; [cbn; rewrite Rabs_R0; lra|]. cbn [total length]. rewrite S_INR.
      eapply Rle_trans; [apply Rabs_triang|]. assert (A1 := Hi' e (or_introl eq_refl)). assert (A2 := IH (fun e0 He0 => Hi' e0 (or_intror He0))). lra. }
    assert (LM : L + 1 <= 2147483648).
    { unfold L. rewrite INR_IZR_INZ. assert (A1 : (Z.of_nat (length c) <= 1073741824)%Z) by lia. apply IZR_le in A1. lra. }
    assert (p53' := p53).
    apply Rabs_le_inv in Hsf. apply Rabs_le_inv in Hnear. rewrite E52 in *.
    assert (HtL : L * pow2 (-1075) <= L * (pow2 (-53) * B)) by (apply Rmult_le_compat_l; lra).
    exists (up c), (down c). assert (UD := up_down c). split; [unfold c in *; cbn [length] in *; lia|].
    split; [rewrite Eg0; reflexivity|]. split; [rewrite Eg1; ring|]. rewrite UD. fold L. cbv zeta.
    split.
    { apply Rabs_le_inv in HWc.
      clear -W Hsf HtL HL L1 B0 P53 LM HWc p53'. set (q := pow2 (-53) * B) in *. assert (0 < q) by (unfold q; nra).
      replace (L * (L + 1) * pow2 (-53) * (2 * B)) with (L * (L + 1) * 2 * q) in Hsf by (unfold q; ring).
      replace (L * (2 * pow2 (-53) * (2 * B) + pow2 (-1075))) with (4 * (L * q) + L * pow2 (-1075)) in W by (unfold q; ring).
      replace (L * (L + 4) * (2 * pow2 (-53)) * B) with (L * (L + 4) * 2 * q) by (unfold q; ring).
      assert (L * (L + 1) * 2 * q + 5 * (L * q) <= L * (L + 4) * 2 * q) by nra.
      split; [lra|]. assert (L * (L + 1) * 2 * q <= L * B); [|lra].
      replace (L * (L + 1) * 2 * q) with (L * ((L + 1) * 2 * q)) by ring. apply Rmult_le_compat_l; [lra|].
      apply Rle_trans with (2147483648 * 2 * q); [apply Rmult_le_compat_r; lra|]. unfold q. rewrite p53'. lra. }
    intros z Hz. apply attainable_iff in Hz as (p & Hp); [|exact Hsym|exact Hl].
    assert (Hcy : 0 <= total (fun e => sc_ev (RC cost) e z) c).
    { rewrite <- total_rev. eapply potential_cycle; [exact Hp|apply Hs]. }
    assert (Hmv := total_move (RC cost) z (RV x) c). cbv beta in Hmv.
    rewrite dot2. cbv beta. rewrite !fopp_R, Eg0, Eg1.
    clear -Hmv Hcy Hsf Hnear HL L1 B0 P53. set (q := pow2 (-53) * B) in *. assert (0 < q) by (unfold q; nra).
    replace (L * (L + 1) * pow2 (-53) * (2 * B)) with (L * (L + 1) * 2 * q) in Hsf by (unfold q; ring).
    replace (L * (2 * pow2 (-53) * B)) with (L * 2 * q) in Hnear by (unfold q; ring).
    replace (L * (L + 3) * (2 * pow2 (-53)) * B) with (L * (L + 1) * 2 * q + L * 2 * q + L * 2 * q) by (unfold q; ring).
    assert (0 <= L * 2 * q) by nra. lra.
Qed.
Print Assumptions C169_scaling64_oracle.

Lemma scaling_call_labels g cost u x t u' r B k : graph_ok g -> scaling_data (g_edges g) cost x B -> no_loops (g_edges g) ->
  (Z.of_nat (k + passes g) <= 2 ^ 50)%Z -> labels B k u ->
  @optscaling_call b64 FNum (cycles_of g) cost u x t = Ok (u', r) -> labels B (k + passes g) u'.
Proof.
  intros Hg Hdat Hl Hk Hu H. assert (Hwt := fun e => scaling_weight (g_edges g) cost x B e Hdat).
  destruct Hdat as (F0 & F1 & HB8 & Hd). assert (HB := range8 B HB8). assert (B0 := B_pos B HB).
  unfold optscaling_call in H.
  destruct (nleb _ _) in H.
  { injection H as <- <-. eapply labels_mono; [exact B0| |exact Hu]. lia. }
  unfold network_call, cycles_of in H. apply bind_ok in H as ([u1 cut] & H & Hk2).
  apply bind_ok in H as ([cs u2] & H & Hc). apply bind_ok in H as ([c d'] & H & Hcs). injection Hcs as <- <-.
  assert (Hlast : u' = d').
  { destruct c as [|e0 c0].
    - injection Hc as <- <-. injection Hk2 as <- _. reflexivity.
    - apply bind_ok in Hc as (f1 & _ & Hc). apply bind_ok in Hc as (g1 & _ & Hc). injection Hc as <- <-.
      injection Hk2 as <- _. reflexivity. }
  rewrite Hlast. unfold find_neg_cycle in H. unfold passes.
  eapply (neg_cycle_labels g _ (sw cost x) B HB); [|exact Hk|exact Hu|exact H].
  intros e He. split; [apply (scaling_eval64 (g_edges g)); assumption|].
  destruct (Hwt e He) as (A1 & _ & A2). split; assumption.
Qed.

(** the oracle as a driver calls it; [mk] packs the pair (gradient, offset) into the cut of the search space *)
Definition scaling_omega64 {C} (mk : (nat -> b64) * b64 -> C) g cost (u x : nat -> b64) (t : b64) : res ((nat -> b64) * (C * option b64)) :=
  ' (u', (c, t1)) <- @optscaling_call b64 FNum (cycles_of g) cost u x t ;; Ok (u', (mk c, t1)).
Lemma omega64_call {C} (mk : (nat -> b64) * b64 -> C) g cost u x t u' c t1 : scaling_omega64 mk g cost u x t = Ok (u', (c, t1)) ->
  exists cu, @optscaling_call b64 FNum (cycles_of g) cost u x t = Ok (u', (cu, t1)) /\ c = mk cu.
Proof.
  unfold scaling_omega64. intros H. apply bind_ok in H as ([u1 [cu t2]] & Ho & H). exists cu. injection H as <- <- <-. auto.
Qed.
(** a value returned by a run of cutting_plane_dc over any search space is the spread of a pair that is attainable
    after widening it by a few roundings *)
Theorem C169_scaling64_returned :
  forall (St X C Sc : Type) (sp : space St X (nat -> b64) C Sc) (mk : (nat -> b64) * b64 -> C) ltb tneq g cost max_it tol u st t tr u' st' xb t' info B,
  graph_ok g -> sym_graph (g_edges g) (RC cost) -> no_loops (g_edges g) ->
  (Z.of_nat (length (g_nodes g)) <= 2 ^ 30)%Z -> (Z.of_nat (max_it * passes g) <= 2 ^ 49)%Z ->
  (forall v, is_finite (u v) = true /\ Rabs (B2R (u v)) <= B) ->
  cutting_plane_dc sp ltb tneq (scaling_omega64 mk g cost) max_it tol u st t
    = Ok (tr, u', st', (xb, t', info)) ->
  (forall ev, In ev tr -> scaling_data (g_edges g) cost (d_x ev) B) -> B <= pow2 700 ->
  (xb = None -> t' = t) /\
  (xb <> None -> exists x, t' = fsub (x 0%nat) (x 1%nat) /\
     let w := pow2 (-50) * ((1 + 4 * INR (max_it * passes g)) * B) in
     attainable (g_edges g) (RC cost) (arr2 (B2R (x 0%nat) + w) (B2R (x 1%nat) - w))).
Proof.
  intros St X C Sc sp mk ltb tneq g cost max_it tol u st t tr u' st' xb t' info B Hg Hsym Hnl HN Hk Hu Hrun Hd HB7.
  destruct (C04_dc_last_improvement _ _ _ _ _ _ _ _ _ _ _ _ _ _ _ _ _ _ _ _ _ _ Hrun) as (Hrep & Hx & _ & _ & Hlen & _).
  destruct Hx as [(_ & -> & ->)|(tr1 & ev & tr2 & -> & _ & Hev & Hxb)]; [split; [reflexivity|congruence]|].
  split; [intros ->; congruence|]. intros _.
  assert (Key : forall n tr1 u st t, (n + length tr1 < max_it)%nat -> labels B (n * passes g) u ->
     dc_replay sp (scaling_omega64 mk g cost) u st t (tr1 ++ ev :: tr2) u' st' t' ->
     (forall e, In e (tr1 ++ ev :: tr2) -> scaling_data (g_edges g) cost (d_x e) B) ->
     exists u1 x t0 u2 cu, labels B ((max_it - 1) * passes g) u1 /\ x = d_x ev /\
       @optscaling_call b64 FNum (cycles_of g) cost u1 x t0 = Ok (u2, (cu, Some t'))).
  { clear -Hev Hk Hg Hnl. intros n tr1. revert n. induction tr1 as [|e1 tr1 IH]; intros n u st t Hn Hlab Hrep Hd.
    - cbn in Hrep. inversion Hrep as [|? ? ? c0 t1 o1 st1 s q tr0 ? ? ? Ho]; subst. cbn in Hev. subst t1. apply omega64_call in Ho as (cu & Ho & _).
      exists u, (centre sp st), t, o1, cu. split; [|split; [reflexivity|exact Ho]].
      assert (R := Hd _ (or_introl eq_refl)). destruct R as (_ & _ & R & _). apply range8 in R.
      eapply labels_mono; [apply B_pos, R| |exact Hlab]. apply Nat.mul_le_mono_r. lia.
    - cbn in Hrep. inversion Hrep as [|? ? ? c0 t1 o1 st1 s q tr0 ? ? ? Ho ? Hr]; subst.
      apply omega64_call in Ho as (cu & Ho & _). assert (R := Hd _ (or_introl eq_refl)). cbn [d_x] in R. cbn [length] in Hn.
      apply (IH (S n) o1 st1 (best t t1)); [lia| |exact Hr|intros e He; apply Hd; right; exact He].
      cbn [mult]. rewrite Nat.add_comm. eapply scaling_call_labels; [exact Hg|exact R|exact Hnl| |exact Hlab|exact Ho].
      replace (n * passes g + passes g)%nat with (S n * passes g)%nat by (cbn; lia).
      assert (S n * passes g <= max_it * passes g)%nat by (apply Nat.mul_le_mono_r; lia). lia. }
  rewrite app_length in Hlen. cbn [length] in Hlen.
  destruct (Key 0%nat tr1 u st t ltac:(lia)) as (u1 & x & t0 & u2 & cu & Hlab & -> & Ho).
  { intros v. cbn [mult INR]. destruct (Hu v) as [F L]. split; [exact F|]. lra. }
  { exact Hrep. } { exact Hd. }
  assert (R : scaling_data (g_edges g) cost (d_x ev) B) by (apply Hd, in_or_app; right; left; reflexivity).
  assert (Hl2 : labels B (max_it * passes g) u2).
  { replace (max_it * passes g)%nat with ((max_it - 1) * passes g + passes g)%nat by (destruct max_it; [lia|cbn; rewrite Nat.sub_0_r; lia]).
    eapply scaling_call_labels; [exact Hg|exact R|exact Hnl| |exact Hlab|exact Ho].
    destruct max_it; [lia|]. cbn [Nat.sub]. rewrite Nat.sub_0_r. cbn [mult] in Hk. lia. }
  set (B' := (1 + 4 * INR (max_it * passes g)) * B).
  assert (K0 := pos_INR (max_it * passes g)).
  assert (K1 : INR (max_it * passes g) <= 562949953421312) by (rewrite INR_IZR_INZ; apply IZR_le; lia).
  destruct R as (F0 & F1 & RB & Rd). assert (P := bpow_gt_0 radix2 (-800)).
  assert (B1 : B <= B').
  { unfold B'. nra. }
  assert (B2 : B' <= pow2 800).
  { apply Rle_trans with (pow2 60 * pow2 700).
    - unfold B'. apply Rmult_le_compat; [lra|lra| |exact HB7]. change (pow2 60) with 1152921504606846976. lra.
    - rewrite <- bpow_plus. apply bpow_le. lia. }
  assert (R' : scaling_data (g_edges g) cost (d_x ev) B').
  { split; [exact F0|]. split; [exact F1|]. split; [split; [lra|exact B2]|]. intros e He. destruct (Rd e He) as (F2 & L1 & L2).
    split; [exact F2|]. split; lra. }
  destruct cu as [g0 f].
  assert (Hnan : forall v, is_nan (u1 v) = false).
  { intros v. destruct (Hlab v) as [F _]. destruct (u1 v); cbn in F |- *; congruence. }
  destruct (C169_scaling64_oracle g cost u1 (d_x ev) t0 u2 g0 f (Some t') B' Hg HN Hnan R' Hsym Hnl Ho) as [_ Hor].
  destruct Hor as [(_ & _ & _ & _ & [=])|(_ & Hor)].
  destruct Hor as [(Et & _ & _ & _ & Ha)|([=] & _)].
  { intros v _. apply Hl2. }
  injection Et as ->. exists (d_x ev). split; [reflexivity|]. exact Ha.
Qed.
Print Assumptions C169_scaling64_returned.

(** the pattern of C43: a symmetric 3x3 matrix whose entry (i,j) has log i + j *)
Definition scost64 (e : edge) : b64 := fmake (Z.of_nat (fst e + snd e)) 0.
Definition sx64 (a b : Z) (i : nat) : b64 := match i with 0%nat => fmake a 0 | _ => fmake b 0 end.
Definition scaling_answer (x : nat -> b64) (t : b64) : option (b64 * b64 * b64 * option b64) :=
  match @optscaling_call b64 FNum (cycles_of sg) scost64 (fun _ => fzero) x t with
  | Ok (_, ((g0, f), t1)) => Some (g0 0%nat, g0 1%nat, f, t1)
  | Raise _ => None
  end.
Definition scaling_run64 :=
  match @ell_init b64 (FNumD fdot_seq) (VScalar (fmake 64 0)) 2 0%nat with
  | Ok e => cutting_plane_dc (@ell_space b64 (FNumD fdot_seq)) (fun x y : b64 => Bltb x y) (fun x y => negb (feqb x y))
      (scaling_omega64 (fun c => (fst c, BScalar (snd c))) sg scost64) 3 (fmake 1 (-20)) (fun _ => fzero) ((fun _ => sx64 5 (-1)), e) (fmake 100 0)
  | Raise x => Raise x end.
Definition scaling_info64 :=
  match scaling_run64 with
  | Ok (tr, _, _, (xb, t', info)) =>
      Some (map (fun ev => match d_t1 ev with Some _ => true | None => false end) tr, B2SF t', feasible info, num_iters info, cstatus info)
  | Raise _ => None end.
(** three queries: the first two are accepted, with spreads 6 and about 2.2287; the third, (1.857..., 2.142...), is cut
    off by a cycle *)
Example C169_ex : graph_ok sg /\ sym_graph (g_edges sg) (RC scost64) /\ no_loops (g_edges sg) /\
  scaling_data (g_edges sg) scost64 (sx64 5 (-1)) 64 /\
  scaling_info64 = Some ([true; true; false], S754_finite false 5018729985410456 (-51), true, 3%nat, success) /\
  (match scaling_answer (sx64 3 1) (fmake 4 0) with Some (a, b, f, Some s) => Some (B2SF a, B2SF b, B2SF f, B2SF s) | _ => None end)
    = Some (S754_finite false 4503599627370496 (-52), S754_finite true 4503599627370496 (-52), S754_zero false, S754_finite false 4503599627370496 (-51)) /\
  (match scaling_answer (sx64 1 2) (fmake 4 0) with Some (a, b, f, None) => Some (B2SF a, B2SF b, B2SF f) | _ => None end)
    = Some (S754_finite true 4503599627370496 (-52), S754_finite false 4503599627370496 (-52), S754_finite false 4503599627370496 (-52)) /\
  (match scaling_answer (sx64 6 1) (fmake 4 0) with Some (a, b, f, None) => Some (B2SF a, B2SF b, B2SF f) | _ => None end)
    = Some (S754_finite false 4503599627370496 (-52), S754_finite true 4503599627370496 (-52), S754_finite false 4503599627370496 (-52)).
Proof.
  destruct C43_C73_ex as (H1 & H2 & H3 & _). split; [exact H1|]. split.
  { intros i j H. split; [apply (H2 i j H)|]. unfold scost64. cbn [fst snd]. rewrite (Nat.add_comm j i). reflexivity. }
  split; [exact H3|]. split.
  { split; [reflexivity|]. split; [reflexivity|].
    split; [split; [apply (bpow_le radix2 (-800) 6); lia|apply (bpow_le radix2 6 800); lia]|].
    intros e He. cbn in He. repeat destruct He as [<-|He]; try contradiction;
      (split; [reflexivity|]; unfold scost64, sx64; cbn [fst snd plus Z.of_nat Pos.of_succ_nat Pos.succ]; rewrite !fmakeR by lia; cbn;
       split; unfold Rabs; repeat destruct Rcase_abs; lra). }
  split; [vm_compute; reflexivity|]. split; [vm_compute; reflexivity|]. split; vm_compute; reflexivity.
Qed.
