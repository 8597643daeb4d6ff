(** Property theorems about cycle_ratio_oracle in binary64, alone and under cutting_plane_dc (C140). *)
From Coq Require Import ZArith Reals Lra Lia Bool List.
From Flocq Require Import Core.Core IEEE754.BinarySingleNaN.
From Verif Require Import Base M_Net S_Net P_Net T_Net M_Drivers S_Drivers T_Drivers M_Ell M_Float P_Float P_Float2 S_Float2 P_FSum P_NetF T_Float T_Float3.
Import ListNotations.
Local Open Scope R_scope.

(** the numbers of one query: finite, with |cost| + |time x| <= B *)
Definition ratio_data (E : list edge) (cost time : edge -> b64) (x : b64) (B : R) : Prop :=
  is_finite x = true /\ pow2 (-800) <= B <= pow2 800 /\
  forall e, In e E -> is_finite (cost e) = true /\ is_finite (time e) = true /\
    Rabs (B2R (cost e)) + Rabs (B2R (time e) * B2R x) <= B.

Lemma tiny B k : pow2 (-900) <= B -> (k <= -1000)%Z -> pow2 k <= pow2 (-100) * B.
Proof.
  intros H Hk. apply Rle_trans with (pow2 (-100) * pow2 (-900)).
  - rewrite <- bpow_plus. apply bpow_le. lia.
  - apply Rmult_le_compat_l; [apply bpow_ge_0|exact H].
Qed.
Lemma p53 : pow2 (-53) = / 9007199254740992. Proof. reflexivity. Qed.
Lemma p100 : pow2 (-100) <= pow2 (-53) * / 1048576.
Proof. change (/ 1048576) with (pow2 (-20)). rewrite <- bpow_plus. apply bpow_le. lia. Qed.
Lemma big B k : B <= pow2 900 -> (901 + k <= 1023)%Z -> (0 <= k)%Z -> 2 * pow2 k * B <= pow2 1023.
Proof.
  intros H Hk H0. apply Rle_trans with (pow2 (1 + k) * pow2 900).
  - rewrite bpow_plus. change (pow2 1) with 2. apply Rmult_le_compat_l; [|exact H].
    apply Rmult_le_pos; [lra|apply bpow_ge_0].
  - rewrite <- bpow_plus. apply bpow_le. lia.
Qed.

Lemma range8 B : pow2 (-800) <= B <= pow2 800 -> pow2 (-900) <= B <= pow2 900.
Proof.
  intros [H1 H2]. split; [eapply Rle_trans; [|exact H1]|eapply Rle_trans; [exact H2|]]; apply bpow_le; lia.
Qed.
(** the weight of an edge *)
Lemma ratio_weight cost time (x : b64) B : is_finite cost = true -> is_finite time = true -> is_finite x = true ->
  pow2 (-900) <= B <= pow2 900 -> Rabs (B2R cost) + Rabs (B2R time * B2R x) <= B ->
  is_finite (fsub cost (fmul time x)) = true /\
  Rabs (B2R (fsub cost (fmul time x)) - (B2R cost - B2R time * B2R x)) <= pow2 (-51) * B /\
  Rabs (B2R (fsub cost (fmul time x))) <= 2 * B.
Proof.
  intros Fc Ft Fx [HB1 HB2] HB. assert (P := bpow_gt_0 radix2 (-900)).
  assert (B0 : 0 < B) by lra.
  assert (T := tiny B (-1075) HB1 ltac:(lia)). assert (Q := p100). rewrite p53 in Q.
  assert (BG := big B 0 HB2 ltac:(lia) ltac:(lia)). change (pow2 0) with 1 in BG.
  assert (P51 : pow2 (-51) = 4 * / 9007199254740992) by (unfold bpow; cbn; lra).
  pose proof (Rabs_pos (B2R cost)). pose proof (Rabs_pos (B2R time * B2R x)).
  destruct (fmul_rnd time x Ft Fx) as [Em Fm]; [lra|].
  assert (E1 := rnd_rel (B2R time * B2R x)). rewrite <- Em, p53 in E1.
  set (p := B2R (fmul time x)) in *. set (y := B2R time * B2R x) in *.
  assert (Hp : Rabs p <= Rabs y + Rabs (p - y)).
  { replace p with (y + (p - y)) at 1 by ring. apply Rabs_triang. }
  assert (Hs : Rabs (B2R cost - p) <= Rabs (B2R cost) + Rabs p).
  { unfold Rminus. eapply Rle_trans; [apply Rabs_triang|]. rewrite Rabs_Ropp. lra. }
  assert (T2 : pow2 (-1075) <= / 9007199254740992 * / 1048576 * B).
  { eapply Rle_trans; [exact T|]. apply Rmult_le_compat_r; lra. }
  destruct (fsub_rnd cost (fmul time x) Fc Fm) as [Es Fs]; [fold p; lra|].
  assert (E2 := rnd_rel (B2R cost - p)). fold p in Es. rewrite <- Es, p53 in E2.
  set (w := B2R (fsub cost (fmul time x))) in *. split; [exact Fs|].
  assert (Hw : Rabs (w - (B2R cost - y)) <= Rabs (w - (B2R cost - p)) + Rabs (p - y)).
  { replace (w - (B2R cost - y)) with ((w - (B2R cost - p)) + - (p - y)) by ring.
    eapply Rle_trans; [apply Rabs_triang|]. rewrite Rabs_Ropp. lra. }
  rewrite P51. split; [lra|].
  assert (Rabs w <= Rabs (B2R cost - p) + Rabs (w - (B2R cost - p))).
  { replace w with ((B2R cost - p) + (w - (B2R cost - p))) at 1 by ring. apply Rabs_triang. }
  lra.
Qed.

(** a sum over a list of edges *)
Lemma lsum64 (w : edge -> b64) (wr : edge -> res b64) b : pow2 (-900) <= b -> b <= pow2 900 ->
  forall c acc k S, (forall e, In e c -> wr e = Ok (w e) /\ is_finite (w e) = true /\ Rabs (B2R (w e)) <= b) ->
  (Z.of_nat (k + length c) <= 2 ^ 30)%Z ->
  is_finite acc = true -> Rabs S <= INR k * b -> Rabs (B2R acc - S) <= INR k * (INR k + 1) * pow2 (-53) * b ->
  exists s, M_Net.lsum (@nadd b64 FNum) wr c acc = Ok s /\ is_finite s = true /\
    Rabs (B2R s - (S + total (fun e => B2R (w e)) c)) <= INR (k + length c) * (INR (k + length c) + 1) * pow2 (-53) * b.
Proof.
  intros Hb1 Hb2. assert (P := bpow_gt_0 radix2 (-900)). assert (B0 : 0 < b) by lra.
  assert (T := tiny b (-1075) Hb1 ltac:(lia)). assert (Q := p100). rewrite p53 in Q.
  assert (T2 : pow2 (-1075) <= / 9007199254740992 * / 1048576 * b).
  { eapply Rle_trans; [exact T|]. apply Rmult_le_compat_r; lra. }
  induction c as [|e c IH]; intros acc k S Hw Hk Fa HS Ha.
  - exists acc. cbn [M_Net.lsum total length]. rewrite Nat.add_0_r, Rplus_0_r. auto.
  - cbn [M_Net.lsum total length]. destruct (Hw e (or_introl eq_refl)) as (-> & Fe & He). cbn [bind].
    replace (k + Datatypes.S (length c))%nat with (Datatypes.S k + length c)%nat by lia.
    replace (S + (B2R (w e) + total (fun e => B2R (w e)) c)) with ((S + B2R (w e)) + total (fun e => B2R (w e)) c) by ring.
    cbn [length] in Hk.
    assert (K0 := pos_INR k).
    assert (K1 : INR k <= 1073741824).
    { rewrite INR_IZR_INZ. apply IZR_le. lia. }
    assert (Hab : Rabs (B2R acc) <= Rabs S + Rabs (B2R acc - S)).
    { replace (B2R acc) with (S + (B2R acc - S)) at 1 by ring. apply Rabs_triang. }
    assert (HSe : Rabs (S + B2R (w e)) <= INR k * b + b).
    { eapply Rle_trans; [apply Rabs_triang|]. lra. }
    rewrite p53 in Ha.
    assert (Hsm : INR k * (INR k + 1) * / 9007199254740992 * b <= (INR k + 1) * / 8388608 * b).
    { apply Rmult_le_compat_r; [lra|]. nra. }
    assert (Hsum : Rabs (B2R acc + B2R (w e)) <= (INR k + 1) * b + INR k * (INR k + 1) * / 9007199254740992 * b).
    { eapply Rle_trans; [apply Rabs_triang|]. lra. }
    assert (BG := big b 40 Hb2 ltac:(lia) ltac:(lia)). change (pow2 40) with 1099511627776 in BG.
    destruct (fadd_rnd acc (w e) Fa Fe) as [Ea F].
    { eapply Rle_trans; [|exact BG]. nra. }
    assert (E := rnd_rel (B2R acc + B2R (w e))). rewrite <- Ea, p53 in E.
    apply IH.
    + intros e' He'. apply Hw. right. exact He'.
    + lia.
    + exact F.
    + rewrite S_INR. lra.
    + change (@nadd b64 FNum acc (w e)) with (fadd acc (w e)).
      replace (B2R (fadd acc (w e)) - (S + B2R (w e))) with ((B2R (fadd acc (w e)) - (B2R acc + B2R (w e))) + (B2R acc - S)) by ring.
      eapply Rle_trans; [apply Rabs_triang|]. rewrite S_INR, p53. nra.
Qed.

Lemma simple_cycle_length g c : graph_ok g -> simple_cycle (g_edges g) c -> (length c <= length (g_nodes g))%nat.
Proof.
  intros Hg [(_ & s & Hc) Hn]. rewrite <- (map_length snd c). apply NoDup_incl_length; [exact Hn|].
  intros v Hv. apply in_map_iff in Hv as ([a b] & <- & Hab). apply (walk_incl _ _ _ _ Hc) in Hab. apply Hg in Hab. apply Hab.
Qed.
Lemma total_near (w v : edge -> R) eps c : (forall e, In e c -> Rabs (w e - v e) <= eps) ->
  Rabs (total w c - total v c) <= INR (length c) * eps.
Proof.
  induction c as [|e c IH]; intros H; cbn [total length].
  - cbn [INR]. rewrite Rminus_diag_eq, Rabs_R0 by reflexivity. lra.
  - rewrite S_INR. replace (w e + total w c - (v e + total v c)) with ((w e - v e) + (total w c - total v c)) by ring.
    eapply Rle_trans; [apply Rabs_triang|]. specialize (IH (fun a Ha => H a (or_intror Ha))). specialize (H e (or_introl eq_refl)). lra.
Qed.

Definition costR (cost time : edge -> b64) (x : b64) (e : edge) : R := B2R (cost e) - B2R (time e) * B2R x.
Lemma ratio_total64 cost time x c :
  total (costR cost time x) c = total (fun e => B2R (cost e)) c - B2R x * total (fun e => B2R (time e)) c.
Proof. unfold costR. induction c as [|e c IH]; cbn [total]; [lra|]. rewrite IH. lra. Qed.

(** ** C140 *)
Theorem C140_ratio64_oracle :
  forall g cost time u x t u' g0 f t1 B T0, graph_ok g -> (Z.of_nat (length (g_nodes g)) <= 2 ^ 30)%Z ->
  (forall v, is_nan (u v) = false) ->
  ratio_data (g_edges g) cost time x B ->
  pow2 (-800) <= T0 <= pow2 800 -> (forall e, In e (g_edges g) -> Rabs (B2R (time e)) <= T0) ->
  @cycle_ratio_call b64 FNum (cycles_of g) cost time u x t = Ok (u', ((g0, f), t1)) ->
  let N := INR (length (g_nodes g)) in
  let C := total (fun e => B2R (cost e)) in
  let T := total (fun e => B2R (time e)) in
  (forall v, is_nan (u' v) = false) /\
  ((exists t0, t = Some t0 /\ Bleb fzero (fsub t0 x) = true /\ g0 = Bopp (fmake 1 0) /\ f = fsub t0 x /\ t1 = None) \/
   ((forall v, In v (g_nodes g) -> is_finite (u' v) = true /\ Rabs (B2R (u' v)) <= B) ->
    (t1 = Some (Some x) /\ B2R g0 = -1 /\ B2R f = 0 /\
     forall c, cycle (g_edges g) c -> B2R x * T c <= C c + INR (length c) * pow2 (-49) * B) \/
    (t1 = None /\ is_finite g0 = true /\ is_finite f = true /\
     (exists c, simple_cycle (g_edges g) c /\ C c <= B2R x * T c + N * pow2 (-49) * B /\
        Rabs (B2R g0 - T c) <= N * (N + 1) * pow2 (-53) * T0 /\
        Rabs (B2R f - (B2R x * T c - C c)) <= N * (N + 3) * pow2 (-52) * B) /\
     forall z, (forall c, cycle (g_edges g) c -> z * T c <= C c) ->
       B2R g0 * (z - B2R x) + B2R f <= N * (N + 3) * pow2 (-52) * (B + T0 * Rabs (z - B2R x))))).
Proof.
  intros g cost time u x t u' g0 f t1 B T0 Hg HN Hu (Fx & HB8 & Hd) HT8 HT H N C T.
  assert (HB := range8 B HB8). assert (HT0 := range8 T0 HT8).
  assert (Hwt : forall e, In e (g_edges g) -> is_finite (fsub (cost e) (fmul (time e) x)) = true /\
     Rabs (B2R (fsub (cost e) (fmul (time e) x)) - costR cost time x e) <= pow2 (-51) * B /\
     Rabs (B2R (fsub (cost e) (fmul (time e) x))) <= 2 * B).
  { intros e He. destruct (Hd e He) as (F1 & F2 & HBe). apply ratio_weight; assumption. }
  set (w := fun e => fsub (cost e) (fmul (time e) x)) in *. change (forall e, In e (g_edges g) -> is_finite (w e) = true /\
     Rabs (B2R (w e) - costR cost time x e) <= pow2 (-51) * B /\ Rabs (B2R (w e)) <= 2 * B) in Hwt.
  assert (B0 : 0 < B) by (assert (P := bpow_gt_0 radix2 (-900)); lra).
  unfold cycle_ratio_call in H.
  set (stop := match t with Some t0 => nleb nzero (nsub t0 x) | None => false end) in H.
  destruct stop eqn:Hst.
  { destruct t as [t0|]; [|discriminate]. injection H as <- <- <- <-. split; [exact Hu|]. left.
    exists t0. repeat split. exact Hst. }
  unfold network_call, cycles_of in H. apply bind_ok in H as ([u1 cut] & H & Hk).
  apply bind_ok in H as ([cs u2] & H & Hc). apply bind_ok in H as ([c d'] & H & Hcs). injection Hcs as <- <-.
  assert (Hwr : forall e, In e (g_edges g) -> ratio_eval cost time e x = Ok (w e) /\ is_finite (w e) = true).
  { intros e He. split; [reflexivity|apply Hwt, He]. }
  assert (Hnn : forall v, is_nan (d' v) = false).
  { destruct (C127_finder64_outcome g _ w u Hg Hwr Hu) as [(c1 & d1 & E1 & A & _)|E]; [|congruence].
    rewrite H in E1. injection E1 as <- <-. apply A. }
  assert (Hlast : u' = d').
  { destruct c as [|e0 c0].
    - injection Hc as <- <-. injection Hk as <- _ _. reflexivity.
    - apply bind_ok in Hc as (f1 & _ & Hc). apply bind_ok in Hc as (g1 & _ & Hc). injection Hc as <- <-.
      injection Hk as <- _ _. reflexivity. }
  rewrite Hlast in *. split; [exact Hnn|]. right. intros Hlab.
  assert (P53 := bpow_gt_0 radix2 (-53)).
  assert (E51 : pow2 (-51) = 4 * pow2 (-53)) by (change 4 with (pow2 2); rewrite <- bpow_plus; reflexivity).
  assert (E52 : pow2 (-52) = 2 * pow2 (-53)) by (change 2 with (pow2 1); rewrite <- bpow_plus; reflexivity).
  assert (E49 : pow2 (-49) = 16 * pow2 (-53)) by (change 16 with (pow2 4); rewrite <- bpow_plus; reflexivity).
  assert (HtB : pow2 (-1075) <= pow2 (-53) * B).
  { eapply Rle_trans; [apply (tiny B); [lra|lia]|]. apply Rmult_le_compat_r; [lra|]. apply bpow_le. lia. }
  destruct (C127_finder64_weights g _ w u c d' (2 * B) Hg Hwr Hu H) as [W1 W2].
  { intros v Hv. destruct (Hlab v Hv). split; [assumption|lra]. }
  { intros e He. apply Hwt, He. }
  { assert (BG := big B 0 (proj2 HB) ltac:(lia) ltac:(lia)). change (pow2 0) with 1 in BG.
    apply Rle_trans with (2 * pow2 900); [lra|]. change (2 * pow2 900) with (pow2 1 * pow2 900). rewrite <- bpow_plus. apply bpow_le. lia. }
  assert (Hnear : forall c0, incl c0 (g_edges g) ->
    Rabs (total (fun e => B2R (w e)) c0 - total (costR cost time x) c0) <= INR (length c0) * (pow2 (-51) * B)).
  { intros c0 Hi. apply total_near. intros e He. apply Hwt, Hi, He. }
  destruct c as [|e0 c0].
  - left. injection Hc as <- <-. injection Hk as <- <- <-. 
    split; [reflexivity|]. split; [change (B2R (Bopp (fmake 1 0)) = -1); destruct fone as [E _]; rewrite fopp_R, E; ring|]. split; [reflexivity|].
    intros c Hcy. specialize (W1 eq_refl c Hcy). 
    assert (Hi : incl c (g_edges g)) by (destruct Hcy as (_ & s & Hs); intros a Ha; exact (walk_incl _ _ _ _ Hs _ Ha)).
    specialize (Hnear c Hi). apply Rabs_le_inv in Hnear. rewrite ratio_total64 in Hnear. fold C T in Hnear |- *.
    assert (K := pos_INR (length c)). rewrite E51, ?E52 in *. rewrite E49.
    assert (INR (length c) * pow2 (-1075) <= INR (length c) * (pow2 (-53) * B)) by (apply Rmult_le_compat_l; assumption).
    nra.
  - right. set (c := e0 :: c0) in *. destruct (W2 ltac:(discriminate)) as [Hs W]. clear W1 W2.
    assert (Hl : (length c <= length (g_nodes g))%nat).
    { rewrite <- (rev_length c). apply simple_cycle_length; assumption. }
    assert (Hi : incl c (g_edges g)).
    { destruct Hs as [(_ & s & Hs) _]. intros a Ha. apply (walk_incl _ _ _ _ Hs). apply in_rev in Ha. exact Ha. }
    assert (HL : 0 <= INR (length c) <= N) by (split; [apply pos_INR|apply le_INR, Hl]).
    apply bind_ok in Hc as (f1 & Hf & Hc). apply bind_ok in Hc as (g1 & Hgr & Hc).
    assert (HB2 : pow2 (-900) <= 2 * B) by lra.
    assert (HB3 : 2 * B <= pow2 900).
    { apply Rle_trans with (pow2 1 * pow2 800); [change (pow2 1) with 2; lra|]. rewrite <- bpow_plus. apply bpow_le. lia. }
    assert (Z0 : Rabs 0 <= INR 0 * (2 * B)) by (rewrite Rabs_R0; cbn [INR]; lra).
    assert (Z1 : Rabs (B2R fzero - 0) <= INR 0 * (INR 0 + 1) * pow2 (-53) * (2 * B)).
    { cbn [B2R fzero INR]. rewrite Rminus_0_r, Rabs_R0. lra. }
    destruct (lsum64 w (fun e => ratio_eval cost time e x) (2 * B) HB2 HB3 c fzero 0 0) as (sf & Esf & Fsf & Hsf);
      [|lia|reflexivity|exact Z0|exact Z1|].
    { intros e He. split; [reflexivity|]. destruct (Hwt e (Hi e He)) as (A1 & _ & A2). split; assumption. }
    assert (Y0 : Rabs 0 <= INR 0 * T0) by (rewrite Rabs_R0; cbn [INR]; lra).
    assert (Y1 : Rabs (B2R fzero - 0) <= INR 0 * (INR 0 + 1) * pow2 (-53) * T0).
    { cbn [B2R fzero INR]. rewrite Rminus_0_r, Rabs_R0. lra. }
    destruct (lsum64 (fun e => Bopp (time e)) (fun e => ratio_grad time e x) T0 (proj1 HT0) (proj2 HT0) c fzero 0 0) as (sg & Esg & Fsg & Hsg);
      [|lia|reflexivity|exact Y0|exact Y1|].
    { intros e He. split; [reflexivity|]. rewrite fopp_fin, fopp_R, Rabs_Ropp. split; [apply Hd, Hi, He|apply HT, Hi, He]. }
    change (@nzero b64 FNum) with fzero in Hf, Hgr. rewrite Esf in Hf. rewrite Esg in Hgr. injection Hf as <-. injection Hgr as <-.
    injection Hc as <- <-. injection Hk as <- <- <-. clear Esf Esg.
    split; [reflexivity|].
    change (@nopp b64 FNum sg) with (Bopp sg). change (@nopp b64 FNum sf) with (Bopp sf).
    rewrite !fopp_fin, !fopp_R. split; [exact Fsg|]. split; [exact Fsf|].
    specialize (Hnear c Hi). rewrite ratio_total64 in Hnear. fold C T in Hnear.
    cbn [plus] in Hsf, Hsg.
    assert (Eg : total (fun e => B2R (Bopp (time e))) c = - T c).
    { clear. unfold T. induction c as [|e c IH]; cbn [total]; [ring|]. rewrite IH, fopp_R. ring. }
    rewrite Eg, Rplus_0_l in Hsg. rewrite Rplus_0_l in Hsf.
    set (L := INR (length c)) in *. assert (L1 : 1 <= L).
    { unfold L, c. cbn [length]. rewrite S_INR. pose proof (pos_INR (length c0)). lra. }
    set (Wc := total (fun e => B2R (w e)) c) in *.
    assert (HgT : Rabs (- B2R sg - T c) <= N * (N + 1) * pow2 (-53) * T0).
    { replace (- B2R sg - T c) with (- (B2R sg - - T c)) by ring. rewrite Rabs_Ropp. eapply Rle_trans; [exact Hsg|].
      assert (P := bpow_gt_0 radix2 (-900)).
      apply Rmult_le_compat_r; [lra|]. apply Rmult_le_compat_r; [lra|]. nra. }
    assert (HfT : Rabs (- B2R sf - (B2R x * T c - C c)) <= N * (N + 3) * pow2 (-52) * B).
    { replace (- B2R sf - (B2R x * T c - C c)) with (- (B2R sf - Wc) + - (Wc - (C c - B2R x * T c))) by ring.
      eapply Rle_trans; [apply Rabs_triang|]. rewrite !Rabs_Ropp. rewrite E51 in Hnear. rewrite E52.
      apply Rle_trans with (L * (L + 1) * pow2 (-53) * (2 * B) + L * (4 * pow2 (-53) * B)); [lra|].
      replace (L * (L + 1) * pow2 (-53) * (2 * B) + L * (4 * pow2 (-53) * B)) with ((L * (L + 3)) * (2 * pow2 (-53) * B)) by ring.
      replace (N * (N + 3) * (2 * pow2 (-53)) * B) with ((N * (N + 3)) * (2 * pow2 (-53) * B)) by ring.
      apply Rmult_le_compat_r; nra. }
    split.
    + exists (rev c). split; [exact Hs|]. unfold C, T. rewrite !total_rev. fold C T. split; [|split; [exact HgT|exact HfT]].
      apply Rabs_le_inv in Hnear. rewrite E51 in Hnear. rewrite E52 in W. rewrite E49.
      assert (L * pow2 (-1075) <= L * (pow2 (-53) * B)) by (apply Rmult_le_compat_l; lra).
      assert (L * (pow2 (-53) * B) <= N * (pow2 (-53) * B)) by (apply Rmult_le_compat_r; nra).
      assert (0 <= N * (pow2 (-53) * B)) by (apply Rmult_le_pos; nra).
      fold Wc in W. nra.
    + intros z Hz. specialize (Hz (rev c) (proj1 Hs)). unfold C, T in Hz. rewrite !total_rev in Hz. fold C T in Hz.
      apply Rabs_le_inv in HfT.
      assert (HgZ : (- B2R sg - T c) * (z - B2R x) <= N * (N + 1) * pow2 (-53) * T0 * Rabs (z - B2R x)).
      { eapply Rle_trans; [apply Rle_abs|]. rewrite Rabs_mult. apply Rmult_le_compat_r; [apply Rabs_pos|exact HgT]. }
      assert (Hm : N * (N + 1) * pow2 (-53) * T0 * Rabs (z - B2R x) <= N * (N + 3) * pow2 (-52) * (T0 * Rabs (z - B2R x))).
      { rewrite <- (Rmult_assoc _ T0). assert (P := bpow_gt_0 radix2 (-900)).
        apply Rmult_le_compat_r; [apply Rabs_pos|]. apply Rmult_le_compat_r; [lra|]. rewrite E52. nra. }
      nra.
Qed.
Print Assumptions C140_ratio64_oracle.

(** labels after k relaxations *)
Definition labels (B : R) (k : nat) (d : nat -> b64) : Prop :=
  forall v, is_finite (d v) = true /\ Rabs (B2R (d v)) <= (1 + 4 * INR k) * B.
Lemma labels_mono B k k' d : 0 <= B -> (k <= k')%nat -> labels B k d -> labels B k' d.
Proof.
  intros HB Hk H v. destruct (H v) as [F L]. split; [exact F|]. apply le_INR in Hk. nra.
Qed.
Lemma label_add B k (a w : b64) : pow2 (-900) <= B <= pow2 900 -> (Z.of_nat k <= 2 ^ 50)%Z ->
  is_finite a = true -> Rabs (B2R a) <= (1 + 4 * INR k) * B -> is_finite w = true -> Rabs (B2R w) <= 2 * B ->
  is_finite (fadd a w) = true /\ Rabs (B2R (fadd a w)) <= (1 + 4 * INR (S k)) * B.
Proof.
  intros [HB1 HB2] Hk Fa Ha Fw Hw. assert (P := bpow_gt_0 radix2 (-900)). assert (B0 : 0 < B) by lra.
  assert (K0 := pos_INR k). assert (K1 : INR k <= 1125899906842624) by (rewrite INR_IZR_INZ; apply IZR_le; lia).
  assert (Hs : Rabs (B2R a + B2R w) <= (3 + 4 * INR k) * B) by (eapply Rle_trans; [apply Rabs_triang|lra]).
  assert (BG := big B 60 HB2 ltac:(lia) ltac:(lia)). change (pow2 60) with 1152921504606846976 in BG.
  destruct (fadd_rnd a w Fa Fw) as [E F].
  { eapply Rle_trans; [exact Hs|]. eapply Rle_trans; [|exact BG]. apply Rmult_le_compat_r; lra. }
  split; [exact F|]. assert (R1 := rnd_rel (B2R a + B2R w)). rewrite <- E, p53 in R1.
  assert (T := tiny B (-1075) HB1 ltac:(lia)). assert (Q := p100). rewrite p53 in Q.
  assert (T2 : pow2 (-1075) <= / 9007199254740992 * / 1048576 * B).
  { eapply Rle_trans; [exact T|]. apply Rmult_le_compat_r; lra. }
  assert (Rabs (B2R (fadd a w)) <= Rabs (B2R a + B2R w) + Rabs (B2R (fadd a w) - (B2R a + B2R w))).
  { replace (B2R (fadd a w)) with ((B2R a + B2R w) + (B2R (fadd a w) - (B2R a + B2R w))) at 1 by ring. apply Rabs_triang. }
  assert (/ 9007199254740992 * Rabs (B2R a + B2R w) <= / 9007199254740992 * ((3 + 4 * INR k) * B)) by (apply Rmult_le_compat_l; lra).
  assert (/ 9007199254740992 * ((3 + 4 * INR k) * B) <= B) by (replace (/ 9007199254740992 * ((3 + 4 * INR k) * B)) with (/ 9007199254740992 * (3 + 4 * INR k) * B) by ring; nra).
  rewrite S_INR. lra.
Qed.
Section Labels.
Variables (g : digraph) (wr : edge -> res b64) (w : edge -> b64) (B : R).
Hypothesis HB : pow2 (-900) <= B <= pow2 900.
Hypothesis Hw : forall e, In e (g_edges g) -> wr e = Ok (w e) /\ is_finite (w e) = true /\ Rabs (B2R (w e)) <= 2 * B.
Lemma B_pos : 0 <= B.
Proof. assert (P := bpow_gt_0 radix2 (-900)). lra. Qed.
Lemma relax_labels : forall es k d pred ch d1 p1 c1, incl es (g_edges g) -> (Z.of_nat (k + length es) <= 2 ^ 50)%Z -> labels B k d ->
  @relax_loop b64 FNum wr es d pred ch = Ok (d1, p1, c1) -> labels B (k + length es) d1.
Proof.
  induction es as [|[u v] es IH]; intros k d pred ch d1 p1 c1 Hi Hk Hd H.
  - cbn in H. injection H as <- <- <-. rewrite Nat.add_0_r. exact Hd.
  - cbn [relax_loop] in H. destruct (Hw (u, v) (Hi _ (or_introl eq_refl))) as (E & Fw & Bw). rewrite E in H. cbn [bind] in H.
    cbn [length] in Hk |- *. replace (k + S (length es))%nat with (S k + length es)%nat by lia.
    assert (Hi' : incl es (g_edges g)) by (intros a Ha; apply Hi; right; exact Ha).
    cbn [nltb nadd FNum] in H. destruct (Bltb _ _); (eapply IH; [exact Hi'|lia| |exact H]).
    + intros a. unfold vset. destruct (Nat.eqb_spec a v) as [->|_].
      * destruct (Hd u) as [F L]. apply label_add; try assumption. lia.
      * apply (labels_mono B k (S k) d B_pos ltac:(lia) Hd a).
    + apply (labels_mono B k (S k) d B_pos ltac:(lia) Hd).
Qed.
Lemma neg_cycle_labels : forall fuel k d pred c d', (Z.of_nat (k + fuel * length (g_edges g)) <= 2 ^ 50)%Z -> labels B k d ->
  @neg_cycle_loop b64 FNum fuel g wr d pred = Ok (c, d') -> labels B (k + fuel * length (g_edges g)) d'.
Proof.
  induction fuel as [|fuel IH]; intros k d pred c d' Hk Hd H; [discriminate|].
  cbn [neg_cycle_loop] in H. apply bind_ok in H as ([[d1 p1] c1] & Hr & H). cbn [mult] in Hk |- *.
  assert (H1 := relax_labels (g_edges g) k d pred false d1 p1 c1 (incl_refl _) ltac:(lia) Hd Hr).
  assert (Hend : labels B (k + (length (g_edges g) + fuel * length (g_edges g))) d1).
  { eapply labels_mono; [apply B_pos| |exact H1]. lia. }
  destruct c1; [|injection H as <- <-; exact Hend].
  apply bind_ok in H as ([h|] & _ & H).
  - apply bind_ok in H as ([|] & _ & H); [|discriminate]. apply bind_ok in H as (c2 & _ & H). injection H as <- <-. exact Hend.
  - rewrite Nat.add_assoc. eapply IH; [lia|exact H1|exact H].
Qed.
End Labels.

(** [passes g]: relaxations in one call of the finder *)
Definition passes (g : digraph) : nat := Nat.max 1 (length (g_nodes g)) * length (g_edges g).
Lemma ratio_call_labels g cost time u x t u' r B k : graph_ok g -> ratio_data (g_edges g) cost time x B ->
  (Z.of_nat (k + passes g) <= 2 ^ 50)%Z -> labels B k u ->
  @cycle_ratio_call b64 FNum (cycles_of g) cost time u x t = Ok (u', r) -> labels B (k + passes g) u'.
Proof.
  intros Hg (Fx & HB8 & Hd) Hk Hu H. assert (HB := range8 B HB8). assert (B0 := B_pos B HB).
  unfold cycle_ratio_call in H.
  set (stop := match t with Some t0 => nleb nzero (nsub t0 x) | None => false end) in H.
  destruct stop eqn:Hst.
  { destruct t as [t0|]; [|discriminate]. injection H as <- <-. eapply labels_mono; [exact B0| |exact Hu]. lia. }
  unfold network_call, cycles_of in H. apply bind_ok in H as ([u1 cut] & H & Hk2).
  apply bind_ok in H as ([cs u2] & H & Hc). apply bind_ok in H as ([c d'] & H & Hcs). injection Hcs as <- <-.
  assert (Hlast : u' = d').
  { destruct c as [|e0 c0].
    - injection Hc as <- <-. injection Hk2 as <- _. reflexivity.
    - apply bind_ok in Hc as (f1 & _ & Hc). apply bind_ok in Hc as (g1 & _ & Hc). injection Hc as <- <-.
      injection Hk2 as <- _. reflexivity. }
  rewrite Hlast. unfold find_neg_cycle in H. unfold passes.
  eapply (neg_cycle_labels g _ (fun e => fsub (cost e) (fmul (time e) x)) B HB); [|exact Hk|exact Hu|exact H].
  intros e He. destruct (Hd e He) as (F1 & F2 & HBe). split; [reflexivity|].
  destruct (ratio_weight (cost e) (time e) x B F1 F2 Fx HB HBe) as (A1 & _ & A2). split; assumption.
Qed.

(** a value returned by a run of cutting_plane_dc over any search space is a lower bound up to a few roundings per edge *)
Theorem C140_ratio64_returned :
  forall (St X Sc : Type) (sp : space St X b64 (b64 * b64) Sc) ltb tneq g cost time max_it tol u st t tr u' st' xb t' info B,
  graph_ok g -> (Z.of_nat (length (g_nodes g)) <= 2 ^ 30)%Z -> (Z.of_nat (max_it * passes g) <= 2 ^ 49)%Z ->
  (forall v, is_finite (u v) = true /\ Rabs (B2R (u v)) <= B) ->
  cutting_plane_dc sp ltb tneq (@cycle_ratio_call b64 FNum (cycles_of g) cost time) max_it tol u st t
    = Ok (tr, u', st', (xb, t', info)) ->
  (forall ev, In ev tr -> ratio_data (g_edges g) cost time (d_x ev) B) -> B <= pow2 700 ->
  (forall e, In e (g_edges g) -> Rabs (B2R (time e)) <= pow2 700) ->
  (xb = None -> t' = t) /\
  (xb <> None -> exists x, t' = Some x /\
     forall c, cycle (g_edges g) c ->
       B2R x * total (fun e => B2R (time e)) c <= total (fun e => B2R (cost e)) c
         + INR (length c) * pow2 (-49) * ((1 + 4 * INR (max_it * passes g)) * B)).
Proof.
  intros St X Sc sp ltb tneq g cost time max_it tol u st t tr u' st' xb t' info B Hg HN Hk Hu Hrun Hd HB7 HT7.
  destruct (C04_dc_last_improvement _ _ _ _ _ _ _ _ _ _ _ _ _ _ _ _ _ _ _ _ _ _ Hrun) as (Hrep & Hx & _ & _ & Hlen & _).
  destruct Hx as [(_ & -> & ->)|(tr1 & ev & tr2 & -> & _ & Hev & Hxb)]; [split; [reflexivity|congruence]|].
  split; [intros ->; congruence|]. intros _.
  assert (Key : forall n tr1 u st t, (n + length tr1 < max_it)%nat -> labels B (n * passes g) u ->
     dc_replay sp (@cycle_ratio_call b64 FNum (cycles_of g) cost time) u st t (tr1 ++ ev :: tr2) u' st' t' ->
     (forall e, In e (tr1 ++ ev :: tr2) -> ratio_data (g_edges g) cost time (d_x e) B) ->
     exists u1 x t0 u2 cu, labels B ((max_it - 1) * passes g) u1 /\ x = d_x ev /\
       @cycle_ratio_call b64 FNum (cycles_of g) cost time u1 x t0 = Ok (u2, (cu, Some t'))).
  { clear -Hev Hk Hg. intros n tr1. revert n. induction tr1 as [|e1 tr1 IH]; intros n u st t Hn Hlab Hrep Hd.
    - cbn in Hrep. inversion Hrep as [|? ? ? c0 t1 o1 st1 s q tr0 ? ? ? Ho]; subst. cbn in Hev. subst t1.
      exists u, (centre sp st), t, o1, c0. split; [|split; [reflexivity|exact Ho]].
      assert (R := Hd _ (or_introl eq_refl)). destruct R as (_ & R & _). apply range8 in R.
      eapply labels_mono; [apply B_pos, R| |exact Hlab]. apply Nat.mul_le_mono_r. lia.
    - cbn in Hrep. inversion Hrep as [|? ? ? c0 t1 o1 st1 s q tr0 ? ? ? Ho ? Hr]; subst.
      assert (R := Hd _ (or_introl eq_refl)). cbn [d_x] in R. cbn [length] in Hn.
      apply (IH (S n) o1 st1 (best t t1)); [lia| |exact Hr|intros e He; apply Hd; right; exact He].
      cbn [mult]. rewrite Nat.add_comm. eapply ratio_call_labels; [exact Hg|exact R| |exact Hlab|exact Ho].
      replace (n * passes g + passes g)%nat with (S n * passes g)%nat by (cbn; lia).
      assert (S n * passes g <= max_it * passes g)%nat by (apply Nat.mul_le_mono_r; lia). lia. }
  rewrite app_length in Hlen. cbn [length] in Hlen.
  destruct (Key 0%nat tr1 u st t ltac:(lia)) as (u1 & x & t0 & u2 & cu & Hlab & -> & Ho).
  { intros v. cbn [mult INR]. destruct (Hu v) as [F L]. split; [exact F|]. lra. }
  { exact Hrep. } { exact Hd. }
  assert (R : ratio_data (g_edges g) cost time (d_x ev) B) by (apply Hd, in_or_app; right; left; reflexivity).
  assert (Hl2 : labels B (max_it * passes g) u2).
  { replace (max_it * passes g)%nat with ((max_it - 1) * passes g + passes g)%nat by (destruct max_it; [lia|cbn; rewrite Nat.sub_0_r; lia]).
    eapply ratio_call_labels; [exact Hg|exact R| |exact Hlab|exact Ho].
    destruct max_it; [lia|]. cbn [Nat.sub]. rewrite Nat.sub_0_r. cbn [mult] in Hk. lia. }
  set (B' := (1 + 4 * INR (max_it * passes g)) * B).
  assert (K0 := pos_INR (max_it * passes g)).
  assert (K1 : INR (max_it * passes g) <= 562949953421312) by (rewrite INR_IZR_INZ; apply IZR_le; lia).
  destruct R as (Fx & RB & Rd). assert (P := bpow_gt_0 radix2 (-800)).
  assert (B1 : B <= B').
  { unfold B'. nra. }
  assert (B2 : B' <= pow2 800).
  { apply Rle_trans with (pow2 60 * pow2 700).
    - unfold B'. apply Rmult_le_compat; [lra|lra| |exact HB7]. change (pow2 60) with 1152921504606846976. lra.
    - rewrite <- bpow_plus. apply bpow_le. lia. }
  assert (R' : ratio_data (g_edges g) cost time (d_x ev) B').
  { split; [exact Fx|]. split; [split; [lra|exact B2]|]. intros e He. destruct (Rd e He) as (F1 & F2 & L). split; [exact F1|]. split; [exact F2|lra]. }
  destruct cu as [g0 f].
  assert (Hnan : forall v, is_nan (u1 v) = false).
  { intros v. destruct (Hlab v) as [F _]. destruct (u1 v); cbn in F |- *; congruence. }
  assert (HT : pow2 (-800) <= pow2 700 <= pow2 800) by (split; apply bpow_le; lia).
  destruct (C140_ratio64_oracle g cost time u1 (d_x ev) t0 u2 g0 f (Some t') B' (pow2 700) Hg HN Hnan R' HT HT7 Ho) as [_ Hor].
  destruct Hor as [(? & _ & _ & _ & _ & [=])|Hor].
  destruct Hor as [(Et & _ & _ & Hc)|([=] & _)].
  { intros v _. apply Hl2. }
  injection Et as ->. exists (d_x ev). split; [reflexivity|]. exact Hc.
Qed.
Print Assumptions C140_ratio64_returned.

(** the graph of C72: the triangle has ratio 2, the two-cycle 7/2 *)
Definition rg64 : digraph := {| g_nodes := [0; 1; 2]%nat; g_edges := [(0, 1); (1, 2); (2, 0); (1, 0)]%nat |}.
Definition rcost64 (e : edge) : b64 := match e with (1, 0)%nat => fmake 5 0 | _ => fmake 2 0 end.
Definition ob64_neq (a b : option b64) : bool :=
  match a, b with Some a, Some b => negb (feqb a b) | None, None => false | _, _ => true end.
Definition ex_ratio64 : option (option b64 * bool * nat * status) :=
  match cutting_plane_dc (@ell1d_space b64 FNum) (fun x y => Bltb x y) ob64_neq
          (@cycle_ratio_call b64 FNum (cycles_of rg64) rcost64 (fun _ => fmake 1 0)) 50 (fmake 1 (-20)) (fun _ => fzero)
          (tt, {| i_r := fmake 8 0; i_xc := fmake 4 0 |}) None with
  | Ok (_, _, _, (_, t', info)) => Some (t', feasible info, num_iters info, cstatus info)
  | Raise _ => None
  end.
Definition ex_ratio64_summary : option (bool * nat * status) :=
  match ex_ratio64 with
  | Some (Some t', b, n, s) => Some ((b && Bltb (fmake 1999 (-10)) t' && Bleb t' (fmake 2 0))%bool, n, s)
  | _ => None
  end.
Example C140_ex : graph_ok rg64 /\ ratio_data (g_edges rg64) rcost64 (fun _ => fmake 1 0) (fmake 4 0) 64 /\
  ex_ratio64_summary = Some (true, 14%nat, smallenough).
Proof.
  split; [|split; [|vm_compute; reflexivity]].
  - intros u v H. cbn in H. repeat destruct H as [H|H]; try (injection H as <- <-; cbn; tauto); contradiction.
  - split; [reflexivity|]. split; [split; [apply (bpow_le radix2 (-800) 6); lia|apply (bpow_le radix2 6 800); lia]|].
    intros e He. cbn in He. repeat destruct He as [<-|He]; try contradiction;
      (split; [reflexivity|]; split; [reflexivity|]; cbn [rcost64]; rewrite !fmakeR by lia; cbn; rewrite !Rabs_pos_eq; lra).
Qed.
