(** C168: experiments/FIR_oracle2.tpy *)
From Coq Require Import Reals Lra Lia List Arith.
From Verif Require Import Base M_Drivers M_Ell S_LinAlg P_LinAlg S_Ell S_Drivers M_Lowpass S_Lowpass P_Lowpass T_Lowpass M_Fir.
Import ListNotations.
Local Open Scope R_scope.

Section Same.
Variable P : lowpass R.
Lemma fir_pass_eq x : forall ks, (forall k, In k ks -> (k < lp_Np P)%nat) ->
  exists r, pass_loop P ks x = Ok r /\ fir_pass P ks x = match r with Some (_, c) => Some c | None => None end.
Proof.
  induction ks as [|k ks IH]; intros H; cbn [pass_loop fir_pass].
  - exists None. auto.
  - unfold row. rewrite (proj2 (Nat.ltb_lt _ _) (H k (or_introl eq_refl))). cbn [bind].
    destruct (nltb (lp_Upsq P) _); [eexists; split; reflexivity|]. destruct (nltb _ (lp_Lpsq P)); [eexists; split; reflexivity|].
    apply IH. intros j Hj. apply H. right. exact Hj.
Qed.
Lemma fir_nonneg_eq x : forall ks, (forall k, In k ks -> (k < lp_Nr P)%nat) ->
  exists r, nonneg_loop P ks x = Ok r /\ fir_nonneg P ks x = match r with Some (_, c) => Some c | None => None end.
Proof.
  induction ks as [|k ks IH]; intros H; cbn [nonneg_loop fir_nonneg].
  - exists None. auto.
  - unfold row. rewrite (proj2 (Nat.ltb_lt _ _) (H k (or_introl eq_refl))). cbn [bind].
    destruct (nltb _ _); [eexists; split; reflexivity|].
    apply IH. intros j Hj. apply H. right. exact Hj.
Qed.
Lemma fir_stop_some x S : forall n i m im, (i + n <= lp_Ns P)%nat ->
  exists r, stop_loop P (seq i n) x S (Some m) im = Ok r /\
    match fir_stop P (seq i n) x S with
    | inl c => exists k, r = inl (k, c)
    | inr w => r = inr (Some (fst (first_max i m im w)), snd (first_max i m im w))
    end.
Proof.
  induction n as [|n IH]; intros i m im H; cbn [seq stop_loop fir_stop].
  - eexists. split; reflexivity.
  - unfold row. rewrite (proj2 (Nat.ltb_lt i (lp_Ns P))) by lia. cbn [bind]. cbv zeta.
    destruct (nltb S _); [eexists; split; [reflexivity|]; eexists; reflexivity|].
    destruct (nltb _ nzero); [eexists; split; [reflexivity|]; eexists; reflexivity|].
    set (v := ndot (lp_n P) (lp_As P i) x).
    destruct (nltb m v) eqn:E.
    + destruct (IH (Datatypes.S i) v i ltac:(lia)) as (r & -> & Hr). exists r. split; [reflexivity|].
      destruct (fir_stop P (seq (Datatypes.S i) n) x S) as [c|w]; [exact Hr|]. cbn [first_max]. rewrite E. exact Hr.
    + destruct (IH (Datatypes.S i) m im ltac:(lia)) as (r & -> & Hr). exists r. split; [reflexivity|].
      destruct (fir_stop P (seq (Datatypes.S i) n) x S) as [c|w]; [exact Hr|]. cbn [first_max]. rewrite E. exact Hr.
Qed.
Lemma fir_stop_eq x S :
  exists r, stop_loop P (seq 0 (lp_Ns P)) x S None 0%nat = Ok r /\
    match fir_stop P (seq 0 (lp_Ns P)) x S with
    | inl c => exists k, r = inl (k, c)
    | inr [] => r = inr (None, 0%nat) /\ lp_Ns P = 0%nat
    | inr (v :: w) => r = inr (Some (fst (first_max 1 v 0 w)), snd (first_max 1 v 0 w))
    end.
Proof.
  destruct (lp_Ns P) as [|n] eqn:EN; cbn [seq stop_loop fir_stop].
  - eexists. split; [reflexivity|]. auto.
  - unfold row. rewrite (proj2 (Nat.ltb_lt 0 (lp_Ns P))) by lia. cbn [bind]. cbv zeta.
    destruct (nltb S _); [eexists; split; [reflexivity|]; eexists; reflexivity|].
    destruct (nltb _ nzero); [eexists; split; [reflexivity|]; eexists; reflexivity|].
    set (v := ndot (lp_n P) (lp_As P 0%nat) x).
    assert (E : neqb v v = true) by (change (Req_bool v v = true); unfold Req_bool; destruct (Req_EM_T v v); [reflexivity|contradiction]).
    rewrite E. destruct (fir_stop_some x S n 1 v 0%nat ltac:(lia)) as (r & -> & Hr). exists r. split; [reflexivity|].
    destruct (fir_stop P (seq 1 n) x S) as [c|w]; exact Hr.
Qed.
End Same.

(** its answer is the one of a new lowpass_oracle, but for the sign test of x[0] that the latter makes at the end *)
Theorem C168_fir_is_lowpass : forall (P : lowpass R) x Spsq, (0 < lp_Ns P)%nat -> 0 <= x 0%nat ->
  match lowpass_call P lp_init x Spsq with
  | Ok (_, (c, t1)) => fir_evaluate P x Spsq = Ok (c, best Spsq t1)
  | Raise e => fir_evaluate P x Spsq = Raise e
  end.
Proof.
  intros P x S HN Hx. unfold lowpass_call, fir_evaluate.
  destruct (C44_new_oracle R P) as (_ & _ & -> & -> & ->).
  destruct (fir_pass_eq P x (seq 0 (lp_Np P))) as (r & -> & ->); [intros k Hk; apply in_seq in Hk; lia|]. cbn [bind].
  destruct r as [[k c]|]; [reflexivity|].
  destruct (fir_stop_eq P x S) as (r & -> & Hr). cbn [bind].
  destruct (fir_nonneg_eq P x (seq 0 (lp_Nr P))) as (q & Eq1 & Eq2); [intros k Hk; apply in_seq in Hk; lia|].
  assert (Ex : nltb (x 0%nat) nzero = false) by (apply Rltb_false; exact Hx).
  destruct (fir_stop P (seq 0 (lp_Ns P)) x S) as [c|[|v w]] eqn:EW.
  - destruct Hr as (k & ->). reflexivity.
  - destruct Hr as (-> & E0). rewrite Eq1, Eq2. cbn [bind]. destruct q as [[k c]|]; [reflexivity|].
    rewrite Ex. unfold row. rewrite E0. reflexivity.
  - rewrite Hr, Eq1, Eq2. cbn [bind]. destruct q as [[k c]|]; [reflexivity|]. rewrite Ex.
    destruct (first_max 1 v 0 w) as [m im] eqn:EM. cbn [fst snd]. unfold row.
    assert (Him : (im < lp_Ns P)%nat).
    { assert (L : length (v :: w) = lp_Ns P).
      { assert (G : forall ks l, fir_stop P ks x S = inr l -> length l = length ks).
        { clear. induction ks as [|k ks IH]; cbn [fir_stop]; intros l; [intros [= <-]; reflexivity|]. cbv zeta.
          destruct (nltb S _); [discriminate|]. destruct (nltb _ nzero); [discriminate|].
          match goal with |- (match ?t with _ => _ end) = _ -> _ => destruct t as [c|l'] eqn:E end; [discriminate|].
          intros [= <-]. cbn [length]. rewrite (IH l' eq_refl). reflexivity. }
        rewrite (G _ _ EW), seq_length. reflexivity. }
      assert (G : forall (l : list R) i m0 i0 m1 i1, (i0 < i)%nat -> first_max i m0 i0 l = (m1, i1) -> (i1 < i + length l)%nat).
      { clear. induction l as [|a l IH]; cbn [first_max length]; intros i m0 i0 m1 i1 Hi E; [injection E as _ <-; lia|].
        destruct (nltb m0 a); apply IH in E; lia. }
      apply G in EM; [|lia]. cbn [length] in L. lia. }
    rewrite (proj2 (Nat.ltb_lt _ _) Him). reflexivity.
Qed.
Print Assumptions C168_fir_is_lowpass.

(** what it answers, for every x *)
Theorem C168_fir : forall (P : lowpass R) x Spsq, (0 < lp_Ns P)%nat ->
  exists g b t', fir_evaluate P x Spsq = Ok ((g, b), t') /\
    (spectrum_ok P Spsq x -> is_stop_max P x t' /\ t' <= Spsq /\ b = BArr [0; t'] /\ sat_cut (lp_n P) x (g, b) x) /\
    (~ spectrum_ok P Spsq x -> t' = Spsq /\ ~ sat_cut (lp_n P) x (g, b) x) /\
    (forall z, spectrum_ok P t' z -> sat_cut (lp_n P) x (g, b) z).
Proof.
  intros P x S HN. unfold fir_evaluate.
  assert (Self : forall g, dot (lp_n P) g (fun i => x i - x i) = 0) by (intros g; rewrite dot_diff; ring).
  destruct (fir_pass_eq P x (seq 0 (lp_Np P))) as (r & E1 & ->); [intros k Hk; apply in_seq in Hk; lia|].
  destruct (pass_loop_spec P x (seq 0 (lp_Np P))) as (r' & E1' & H1); [intros k Hk; apply in_seq in Hk; lia|].
  assert (r' = r) by congruence. subst r'.
  destruct r as [[k [g b]]|].
  { destruct H1 as (Hk & H1). apply in_seq in Hk. exists g, b, S. split; [reflexivity|].
    assert (Hns : ~ spectrum_ok P S x) by (intros (H & _); specialize (H k ltac:(lia)); lra).
    split; [contradiction|]. split.
    - intros _. split; [reflexivity|]. unfold sat_cut. cbn [fst snd]. rewrite Self. destruct H1 as [(H & [= -> ->])|(H & [= -> ->])]; lra.
    - intros z (Z1 & _). specialize (Z1 k ltac:(lia)). unfold sat_cut. cbn [fst snd]. rewrite dot_diff.
      destruct H1 as [(H & [= -> ->])|(H & [= -> ->])]; rewrite ?dot_vopp; lra. }
  destruct (fir_stop_eq P x S) as (r & E2 & H2).
  destruct (stop_loop_spec P x S (seq 0 (lp_Ns P)) None 0%nat) as (r' & E2' & H3); [intros k Hk; apply in_seq in Hk; lia|].
  assert (r' = r) by congruence. subst r'.
  destruct (fir_stop P (seq 0 (lp_Ns P)) x S) as [[g b]|w] eqn:EW.
  { destruct H2 as (k & ->). destruct H3 as (Hk & H3). apply in_seq in Hk. exists g, b, S. split; [reflexivity|].
    assert (Hns : ~ spectrum_ok P S x) by (intros (_ & H & _); specialize (H k ltac:(lia)); lra).
    split; [contradiction|]. split.
    - intros _. split; [reflexivity|]. unfold sat_cut. cbn [fst snd]. rewrite Self. destruct H3 as [(H & [= -> ->])|(H & _ & [= -> ->])]; lra.
    - intros z (_ & Z1 & _). specialize (Z1 k ltac:(lia)). unfold sat_cut. cbn [fst snd]. rewrite dot_diff.
      destruct H3 as [(H & [= -> ->])|(H & _ & [= -> ->])]; rewrite ?dot_vopp; lra. }
  destruct w as [|v w]; [destruct H2 as (_ & H2); lia|]. rewrite H2 in H3. destruct H3 as (Hs & H3).
  destruct (first_max 1 v 0 w) as [m im]. cbn [fst snd] in H3.
  destruct (fir_nonneg_eq P x (seq 0 (lp_Nr P))) as (q & Eq1 & ->); [intros k Hk; apply in_seq in Hk; lia|].
  destruct (nonneg_loop_spec P x (seq 0 (lp_Nr P))) as (q' & Eq1' & H4); [intros k Hk; apply in_seq in Hk; lia|].
  assert (q' = q) by congruence. subst q'.
  destruct q as [[k [g b]]|].
  { destruct H4 as (Hk & H & [= -> ->]). apply in_seq in Hk. eexists _, _, S. split; [reflexivity|].
    assert (Hns : ~ spectrum_ok P S x) by (intros (_ & _ & H'); specialize (H' k ltac:(lia)); lra).
    split; [contradiction|]. split.
    - intros _. split; [reflexivity|]. unfold sat_cut. cbn [fst snd]. rewrite Self. lra.
    - intros z (_ & _ & Z1). specialize (Z1 k ltac:(lia)). unfold sat_cut. cbn [fst snd]. rewrite dot_diff, !dot_vopp. lra. }
  assert (Hok : spectrum_ok P S x).
  { split; [intros k Hk; apply H1, in_seq; lia|]. split; [intros k Hk; apply Hs, in_seq; lia|intros k Hk; apply H4, in_seq; lia]. }
  destruct H3 as [(H3 & _)|(Hin & Hm & Hall & _)]; [discriminate|]. injection Hm as ->. apply in_seq in Hin.
  eexists _, _, _. split; [reflexivity|]. split; [|split; [contradiction|]].
  - intros _. split; [split; [exists im; split; [lia|reflexivity]|intros k Hk; apply Hall, in_seq; lia]|].
    split; [apply Hs, in_seq; lia|]. split; [reflexivity|]. unfold sat_cut. cbn [fst snd]. rewrite Self.
    destruct (Hs im) as (A & _); [apply in_seq; lia|]. change (@nzero R RNum) with 0. lra.
  - intros z (_ & Z & _). specialize (Z im ltac:(lia)). unfold sat_cut. cbn [fst snd]. rewrite dot_diff.
    change (@nzero R RNum) with 0. lra.
Qed.
Print Assumptions C168_fir.
Example C168_ex : (0 < lp_Ns lpR)%nat /\ spectrum_ok lpR 1 (vec2 0 (6 / 10) (2 / 10)) /\ ~ spectrum_ok lpR 1 (vec2 0 2 0).
Proof.
  split; [cbn; lia|]. split.
  - apply (lpR_ok 1 (vec2 0 (6 / 10) (2 / 10))). cbn. lra.
  - intros H. assert (F : filter_ok lpR 1 (vec2 0 2 0)) by (split; [exact H|cbn; lra]). apply lpR_ok in F. cbn in F. lra.
Qed.
