(** Property theorems about lowpass_oracle in binary64 (C154, C155). *)
From Coq Require Import ZArith Reals Lra Lia Bool List.
From Flocq Require Import Core.Core IEEE754.BinarySingleNaN.
From Verif Require Import Base M_Drivers S_Drivers T_Drivers M_Ell S_LinAlg P_LinAlg M_Float P_Float P_Float2 S_Float P_FSum P_EllF
  M_Lowpass S_Lowpass P_Lowpass S_LowpassF P_LowpassF T_Lowpass T_Float T_Float9.
Import ListNotations.
Local Open Scope R_scope.

Notation lowpass64_call dot := (@lowpass_call b64 (FNumD dot)).

(** ** C154 *)
Theorem C154_lowpass64 :
  forall dot (P : lowpass b64) s x Spsq B, fdot_any dot -> lp_bound P x B -> counters_ok P s -> (0 < lp_Ns P)%nat ->
  let n := lp_n P in let eps := row_err n B in
  exists s' c t1, lowpass64_call dot P s x Spsq = Ok (s', (c, t1)) /\ counters_ok P s' /\
  match t1 with
  | Some m => filter_within (lp_real P) eps (B2R m) (fun i => B2R (x i)) /\ Bltb Spsq m = false /\
      exists k, (k < lp_Ns P)%nat /\ m = dot n (lp_As P k) x /\ is_finite m = true /\ 0 <= B2R m /\ c = (lp_As P k, BArr [fzero; m])
  | None => is_finite Spsq = true -> Rabs (B2R Spsq) <= B ->
      ~ filter_within (lp_real P) (- eps) (B2R Spsq) (fun i => B2R (x i)) /\ 0 < beta0_64 (snd c) <= 2 * B + (2 * eps + pow2 (-51) * B) + Rabs (B2R (x 0%nat)) /\
      forall z d, filter_within (lp_real P) d (B2R Spsq) z -> - d <= z 0%nat -> sat_within n (2 * eps + pow2 (-51) * B + d) x c z
  end.
Proof. intros dot P s x Spsq B HD HB Hs HN. exact (lowpass64 dot P x B HD HB s Spsq Hs HN). Qed.
Print Assumptions C154_lowpass64.

(** ** C155 *)
Theorem C155_lowpass64_returned :
  forall (St X Sc : Type) (sp : space St X (nat -> b64) (cut b64) Sc) ltb tneq dot (P : lowpass b64)
         s max_it tol st t tr s' st' xb t' info,
  fdot_any dot -> counters_ok P s -> (0 < lp_Ns P)%nat ->
  (forall ev, In ev tr -> exists B, lp_bound P (d_x ev) B) ->
  cutting_plane_dc sp ltb tneq (lowpass64_call dot P) max_it tol s st t = Ok (tr, s', st', (xb, t', info)) ->
  (xb = None -> t' = t /\ forall ev B, In ev tr -> lp_bound P (d_x ev) B -> is_finite t = true -> Rabs (B2R t) <= B ->
     ~ filter_within (lp_real P) (- row_err (lp_n P) B) (B2R t) (fun i => B2R (d_x ev i))) /\
  (is_nan t = false -> Bltb t t' = false) /\
  (xb <> None -> is_finite t' = true /\ exists ev k, In ev tr /\ (k < lp_Ns P)%nat /\ t' = dot (lp_n P) (lp_As P k) (d_x ev) /\
     forall B, lp_bound P (d_x ev) B -> filter_within (lp_real P) (row_err (lp_n P) B) (B2R t') (fun i => B2R (d_x ev i))).
Proof.
  intros St X Sc sp ltb tneq dot P s max_it tol st t tr s' st' xb t' info HD Hs HN Hev Hrun.
  destruct (C04_dc_last_improvement _ _ _ _ _ _ _ sp ltb tneq (lowpass64_call dot P) max_it tol s st t tr s' st' xb t' info Hrun)
    as (Hrep & Hx & _). clear Hrun.
  (* every iteration answers as C154 says *)
  assert (K : forall ev, In ev tr -> exists o o1, counters_ok P o /\ lowpass64_call dot P o (d_x ev) (d_t ev) = Ok (o1, (d_cut ev, d_t1 ev))).
  { clear - Hrep Hs Hev HD HN. revert s Hs st t Hrep. induction tr as [|e1 tr IH]; intros s Hs st t Hrep ev Hin; [destruct Hin|].
    inversion Hrep as [|? ? ? c0 t1 o1 st1 q0 q tr0 ? ? ? Ho ? Hr]; subst.
    assert (Hs1 : counters_ok P o1) by apply (lowpass_call_any P _ _ _ _ _ _ Hs Ho).
    destruct Hin as [<-|Hin]; [exists s, o1; split; [exact Hs|exact Ho]|].
    apply (IH (fun e H => Hev e (or_intror H)) o1 Hs1 st1 (best t t1) Hr ev Hin). }
  split; [|split].
  - intros ->. destruct Hx as [(Hno & -> & _)|(tr1 & ev & tr2 & _ & _ & _ & Hxb)]; [|congruence]. split; [reflexivity|].
    intros ev B Hin HB Ft Rt. destruct (K ev Hin) as (o & o1 & Ho & E).
    assert (T : d_t ev = t).
    { clear - Hrep Hno Hin. revert s st Hrep. induction tr as [|e1 tr IH]; intros s st Hrep; [destruct Hin|].
      inversion Hrep as [|? ? ? c0 t1 o1 st1 q0 q tr0 ? ? ? Ho ? Hr]; subst. inversion Hno as [|? ? N1 N2]; subst. unfold no_t1 in N1. cbn in N1. subst t1.
      destruct Hin as [<-|Hin]; [reflexivity|]. exact (IH N2 Hin o1 st1 Hr). }
    rewrite Forall_forall in Hno. specialize (Hno ev Hin). unfold no_t1 in Hno.
    destruct (C154_lowpass64 dot P o (d_x ev) (d_t ev) B HD HB Ho HN) as (o2 & c2 & t2 & E2 & _ & H2). assert (t2 = None) by congruence. subst t2.
    rewrite T in H2. apply (H2 Ft Rt).
  - intros Nt. clear Hx. revert s Hs st t Nt Hrep. induction tr as [|e1 tr IH]; intros s Hs st t Nt Hrep.
    + inversion Hrep; subst. destruct t' as [|[]| |[]]; try discriminate Nt; try reflexivity.
      all: rewrite f64_ltb by reflexivity; apply Rlt_bool_false, Rle_refl.
    + inversion Hrep as [|? ? ? c0 t1 o1 st1 q0 q tr0 ? ? ? Ho ? Hr]; subst.
      assert (Hs1 : counters_ok P o1) by apply (lowpass_call_any P _ _ _ _ _ _ Hs Ho).
      destruct (Hev _ (or_introl eq_refl)) as [B HB]. cbn [d_x] in HB.
      destruct (C154_lowpass64 dot P s (centre sp st) t B HD HB Hs HN) as (o2 & c2 & t2 & E2 & _ & H2). assert (t2 = t1) by congruence. subst t2.
      assert (IH' := IH (fun e H => Hev e (or_intror H)) (fun e H => K e (or_intror H)) o1 Hs1 st1).
      destruct t1 as [m|]; cbn [best] in Hr; [|exact (IH' t Nt Hr)].
      destruct H2 as (_ & Lm & k & _ & _ & Fm & _). assert (Nm : is_nan m = false) by (destruct m; try discriminate Fm; reflexivity).
      exact (nlt_trans t m t' Nm Lm (IH' m Nm Hr)).
  - intros Hxb. destruct Hx as [(_ & _ & ->)|(tr1 & ev & tr2 & -> & _ & Et & _)]; [congruence|].
    assert (Hin : In ev (tr1 ++ ev :: tr2)) by (apply in_or_app; right; left; reflexivity).
    destruct (K ev Hin) as (o & o1 & Ho & E). rewrite Et in E.
    assert (Q : forall B, lp_bound P (d_x ev) B -> filter_within (lp_real P) (row_err (lp_n P) B) (B2R t') (fun i => B2R (d_x ev i)) /\
       exists k, (k < lp_Ns P)%nat /\ t' = dot (lp_n P) (lp_As P k) (d_x ev) /\ is_finite t' = true).
    { intros B HB. destruct (C154_lowpass64 dot P o (d_x ev) (d_t ev) B HD HB Ho HN) as (o2 & c2 & t2 & E2 & _ & H2).
      assert (t2 = Some t') by congruence. subst t2. destruct H2 as (H2 & _ & k & Hk & Em & Fm & _). split; [exact H2|]. exists k. auto. }
    destruct (Hev ev Hin) as [B0 HB0]. destruct (Q B0 HB0) as (_ & k & Hk & Em & Fm). split; [exact Fm|].
    exists ev, k. split; [exact Hin|]. split; [exact Hk|]. split; [exact Em|]. intros B HB. apply (Q B HB).
Qed.
Print Assumptions C155_lowpass64_returned.

(** numbers below 16 in magnitude *)
Definition below16 (a : b64) : bool := Bltb (Babs a) (fmake 16 0).
Lemma below16_ok a : below16 a = true -> is_finite a = true /\ Rabs (B2R a) <= 16.
Proof.
  unfold below16. intros H. assert (F : is_finite a = true) by (destruct a as [|[]| |[]]; try reflexivity; vm_compute in H; discriminate H).
  split; [exact F|]. rewrite f64_ltb in H by (rewrite ?is_finite_Babs; try exact F; reflexivity). rewrite B2R_Babs, fmakeR in H by lia. change (pow2 0) with 1 in H.
  destruct (Rlt_bool_spec (Rabs (B2R a)) (16 * 1)); [lra|discriminate].
Qed.
(** the rows (1, 2), (1, -2) and (1, 0), pass band between 1/2 and 3/2 *)
Definition fv2 (a b : b64) : nat -> b64 := vec2 fzero a b.
Definition lpF : lowpass b64 :=
  {| lp_n := 2; lp_Np := 1; lp_Ap := fun _ => fv2 (fmake 1 0) (fmake 2 0); lp_Ns := 1; lp_As := fun _ => fv2 (fmake 1 0) (fmake (-2) 0);
     lp_Nr := 1; lp_Anr := fun _ => fv2 (fmake 1 0) fzero; lp_Lpsq := fmake 1 (-1); lp_Upsq := fmake 3 (-1) |}.
Lemma lpF_bound x : below16 (x 0%nat) = true -> below16 (x 1%nat) = true -> lp_bound lpF x 512.
Proof.
  intros H0 H1. destruct (below16_ok _ H0) as [F0 R0]. destruct (below16_ok _ H1) as [F1 R1].
  assert (P9 : 512 <= pow2 900) by (change 512 with (pow2 9); apply bpow_le; lia).
  assert (RB : forall a, below16 (a 0%nat) = true -> below16 (a 1%nat) = true -> row_bound 2 a x 512).
  { intros a A0 A1. destruct (below16_ok _ A0) as [G0 S0]. destruct (below16_ok _ A1) as [G1 S1]. split.
    - intros [|[|i]] Hi; [split; assumption|split; assumption|lia].
    - cbn [rsum]. rewrite !Rabs_mult. assert (Z0 := Rabs_pos (B2R (x 0%nat))). assert (Z1 := Rabs_pos (B2R (x 1%nat))).
      assert (Rabs (B2R (a 0%nat)) * Rabs (B2R (x 0%nat)) <= 16 * 16) by (apply Rmult_le_compat; try apply Rabs_pos; assumption).
      assert (Rabs (B2R (a 1%nat)) * Rabs (B2R (x 1%nat)) <= 16 * 16) by (apply Rmult_le_compat; try apply Rabs_pos; assumption). lra. }
  split; [cbn; lia|]. split; [lra|]. split; [intros k _; apply RB; reflexivity|]. split; [intros k _; apply RB; reflexivity|]. split; [intros k _; apply RB; reflexivity|].
  split; [exact F0|]. cbn [lpF lp_Lpsq lp_Upsq]. split; (split; [reflexivity|]); rewrite fmakeR by lia; change (pow2 (-1)) with (/ 2); rewrite Rabs_right; lra.
Qed.
Definition lp_info (r : res (lp_state * (cut b64 * option b64))) : option (option bool) :=
  match r with Ok (_, (_, t1)) => Some (match t1 with Some m => Some (feqb m (fmake 1 (-2))) | None => None end) | Raise _ => None end.
(** (1/2, 1/8) meets the specification and is reported with the stop-band value 1/4; (2, 0) does not *)
Example C154_ex : lp_bound lpF (fv2 (fmake 1 (-1)) (fmake 1 (-3))) 512 /\ lp_bound lpF (fv2 (fmake 2 0) fzero) 512 /\
  counters_ok lpF lp_init /\ (0 < lp_Ns lpF)%nat /\ 
  lp_info (lowpass64_call fdot_seq lpF lp_init (fv2 (fmake 1 (-1)) (fmake 1 (-3))) (fmake 1 0)) = Some (Some true) /\
  lp_info (lowpass64_call fdot_seq lpF lp_init (fv2 (fmake 2 0) fzero) (fmake 1 0)) = Some None.
Proof.
  split; [apply lpF_bound; reflexivity|]. split; [apply lpF_bound; reflexivity|]. split; [unfold counters_ok; cbn; lia|]. split; [cbn; lia|].
  split; vm_compute; reflexivity.
Qed.
(** minimise the stop-band maximum from the ball of radius 2 about (1, 0) *)
Definition lp_run :=
  match @ell_init b64 FNum (VScalar (fmake 4 0)) 2 0%nat with
  | Raise e => Raise e
  | Ok e => cutting_plane_dc (@ell_space b64 FNum) (fun x y => Bltb x y) (fun _ _ => true) (lowpass64_call fdot_seq lpF) 6 (fmake 1 (-30))
              lp_init (fun _ => fv2 (fmake 2 0) fzero, e) (fmake 1 0)
  end.
Definition lp_run_info :=
  match lp_run with
  | Ok (tr, s', st', (xb, t', info)) => Some (match xb with Some _ => true | None => false end, num_iters info, Bltb t' (fmake 1 0),
      forallb (fun ev => below16 (d_x ev 0%nat) && below16 (d_x ev 1%nat)) tr)
  | Raise _ => None
  end.
Example C155_ex : lp_run_info = Some (true, 6%nat, true, true) /\
  (forall x, below16 (x 0%nat) && below16 (x 1%nat) = true -> exists B, lp_bound lpF x B).
Proof.
  split; [vm_compute; reflexivity|]. intros x H. apply andb_prop in H as [H0 H1]. exists 512. exact (lpF_bound x H0 H1).
Qed.
