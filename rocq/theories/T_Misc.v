(** Property theorems about problem.py, the correlation helpers, spectral factors and fib
    (C48, C57-C60, C62, C67). *)
From Coq Require Import QArith Reals Lra Psatz.
From Verif Require Import Base M_Drivers M_Misc M_Ell M_Chol M_Lmi S_LinAlg P_LinAlg S_Misc S_Lmi P_Misc
  S_Drivers P_Drivers P_Lmi T_Drivers T_Chol T_Lmi.
Local Open Scope R_scope.

(** ** C62 *)
Theorem C62_fib :
  forall n, ((n <= 0)%Z -> fib n = Raise AssertionError) /\
            ((0 < n)%Z -> fib n = Ok (fibonacci (Z.to_nat n))).
Proof.
  intros n. split; [|apply fib_spec]. intros Hn. unfold fib. destruct (Z.ltb_spec 0 n); [lia|reflexivity].
Qed.
Print Assumptions C62_fib.
Example C62_run : fib 7 = Ok 13%Z /\ fib (-10) = Raise AssertionError.
Proof. split; reflexivity. Qed.

(** ** C48 *)
Theorem C48_inverse_spectral_fact :
  forall n h, exists r, inverse_spectral_fact n h = Ok r /\
   (forall t, (t < n)%nat -> r t = rsum (n - t) (fun i => h (i + t)%nat * h i)) /\
   ((0 < n)%nat -> forall w,
      let spectrum := r 0%nat + 2 * rsum (n - 1) (fun t => r (S t) * cos (INR (S t) * w)) in
      spectrum = (rsum n (fun i => h i * cos (INR i * w))) ^ 2 + (rsum n (fun i => h i * sin (INR i * w))) ^ 2
      /\ 0 <= spectrum).
Proof.
  intros n h. destruct (inverse_spectral_fact_spec n h) as (r & E & Hr). exists r. split; [exact E|].
  split; [exact Hr|]. intros Hn w. cbv zeta.
  rewrite (Hr 0%nat Hn).
  rewrite (rsum_ext (n - 1) _ (fun t => rsum (n - S t) (fun i => h (i + S t)%nat * h i) * cos (INR (S t) * w)))
    by (intros; rewrite Hr by lia; reflexivity).
  rewrite (spectrum_square n h w).
  split; [reflexivity|].
  assert (H1 := pow2_ge_0 (rsum n (fun i => h i * cos (INR i * w)))).
  assert (H2 := pow2_ge_0 (rsum n (fun i => h i * sin (INR i * w)))). lra.
Qed.
Print Assumptions C48_inverse_spectral_fact.
Example C48_run : exists r : nat -> Q, inverse_spectral_fact 3 (fun i => inject_Z (Z.of_nat i + 1)) = Ok r /\
  (r 0%nat == 14 /\ r 1%nat == 8 /\ r 2%nat == 3)%Q.
Proof. eexists. split; [reflexivity|]. repeat split. Qed.

(** ** C59 *)
Theorem C59_mono_oracle :
  forall n x,
  match mono_oracle n x with
  | None => non_increasing n x
  | Some (g, fj) => ~ non_increasing n x /\ 0 < fj /\
      forall z, non_increasing n z -> dot n g (fun i => z i - x i) + fj <= 0
  end.
Proof.
  intros n x. unfold mono_oracle. assert (Hn : (0 + (n - 1) < n \/ n - 1 = 0)%nat) by lia.
  pose proof (mono_loop_spec (n - 1) 0 n x Hn) as H.
  destruct (mono_loop (n - 1) 0 x) as [[g fj]|].
  - destruct H as (j & Hj & Hf & E & Hd). split; [|split; [assumption|]].
    + intros Hm. specialize (Hm j). lra || (assert (x (S j) <= x j) by (apply Hm; lia); lra).
    + intros z Hz. rewrite Hd, E. assert (z (S j) <= z j) by (apply Hz; lia). lra.
  - intros i Hi. apply H. lia.
Qed.
Print Assumptions C59_mono_oracle.
Example C59_run : (exists g, mono_oracle 3 (fun i => if Nat.eqb i 2 then 5 else 3) = Some (g, 5 - 3)) /\
  non_increasing 3 (fun i => - INR i).
Proof.
  split.
  - eexists. unfold mono_oracle. cbn. unfold Rltb. destruct (Rlt_dec 0 (3 - 3)); [lra|].
    destruct (Rlt_dec 0 (5 - 3)); [reflexivity|lra].
  - intros i _. rewrite S_INR. lra.
Qed.

(** the wrapper: the basis oracle is consulted exactly on non-increasing x[:-1]; if the basis
    oracle's cuts are valid then so are the combined ones *)
Theorem C59_mono_decreasing_oracle2 :
  forall (O T : Type) (basis : O -> (nat -> R) -> T -> res (O * (((nat -> R) * R) * option T))) n o x t,
  (0 < n)%nat ->
  (non_increasing (n - 1) x -> mono2_call basis n o x t = basis o x t) /\
  (~ non_increasing (n - 1) x -> exists g fj,
     mono2_call basis n o x t = Ok (o, ((g, fj), None)) /\ 0 < fj /\ g (n - 1)%nat = 0 /\
     forall z, non_increasing (n - 1) z -> dot n g (fun i => z i - x i) + fj <= 0).
Proof.
  intros O T basis n o x t Hn. pose proof (C59_mono_oracle (n - 1) x) as H. unfold mono2_call.
  destruct (mono_oracle (n - 1) x) as [[g1 fj]|].
  - destruct H as (H1 & H2 & H3). split; [contradiction|]. intros _. eexists _, _. split; [reflexivity|].
    split; [assumption|]. split; [unfold vset; rewrite Nat.eqb_refl; reflexivity|].
    intros z Hz. replace (dot n _ _) with (dot (n - 1) g1 (fun i => z i - x i)); [apply H3; assumption|].
    unfold dot. destruct n as [|n]; [lia|]. cbn [rsum Nat.sub]. rewrite Nat.sub_0_r.
    unfold vset at 2. rewrite Nat.eqb_refl. change (@nzero R RNum) with 0. rewrite Rmult_0_l, Rplus_0_r.
    apply rsum_ext. intros k Hk. unfold vset. destruct (Nat.eqb_spec k n); [lia|].
    destruct (Nat.ltb_spec k n); [reflexivity|lia].
  - split; [reflexivity|contradiction].
Qed.
Print Assumptions C59_mono_decreasing_oracle2.
Example C59_mono2_hypotheses_met : (0 < 4)%nat /\ ~ non_increasing (4 - 1) (fun i => if Nat.eqb i 2 then 5 else 3).
Proof. split; [lia|]. intros H. specialize (H 1%nat). cbn in H. assert (5 <= 3) by (apply H; lia). lra. Qed.

(** ** C60 *)
Theorem C60_distance_matrix :
  forall n d s, exists D, distance_matrix n d s = Ok D /\ sym n D /\
    forall i j, (i < n)%nat -> (j < n)%nat ->
      D i j = edist d (s i) (s j) /\ 0 <= D i j /\ D i i = 0.
Proof.
  intros n d s. destruct (distance_matrix_spec n d s) as (D & E & H). exists D. split; [exact E|]. split.
  - intros i j Hi Hj. rewrite !H by assumption. apply edist_sym.
  - intros i j Hi Hj. rewrite !H by assumption. split; [reflexivity|]. split; [apply edist_nonneg|apply edist_refl].
Qed.
Print Assumptions C60_distance_matrix.
Theorem C60_poly_matrix :
  forall n d s m, (1 <= m)%Z -> exists D Sig, distance_matrix n d s = Ok D /\ poly_matrix n d s m = Ok Sig /\
    length Sig = Z.to_nat m /\ all_sym n Sig /\
    forall k i j, (k < length Sig)%nat -> nth k Sig (fun _ _ => 0) i j = (D i j) ^ k.
Proof.
  intros n d s m Hm. destruct (poly_matrix_spec n d s m) as (D & Sig & E & E2 & Hl & Hk).
  destruct (C60_distance_matrix n d s) as (D' & E' & Hs & _). rewrite E in E'. injection E' as <-.
  exists D, Sig. split; [exact E|]. split; [exact E2|]. split; [lia|]. split.
  - intros M HM. apply (In_nth _ _ (fun _ _ => 0)) in HM as (k & Hkl & <-).
    intros i j Hi Hj. rewrite !Hk, (Hs i j) by assumption. reflexivity.
  - intros k i j Hkl. apply Hk. assumption.
Qed.
Print Assumptions C60_poly_matrix.
(** hence the QMI oracle built from them (corr_poly with qmi_oracle) makes valid cuts for any F0 *)
Theorem C60_corr_qmi_cut_valid :
  forall n d s m F0 Sig (q q' : qmi R) (Q Q' : chol R) x t g ep,
  (1 <= m)%Z -> poly_matrix n d s m = Ok Sig -> q_t q = Some t -> oracle_chol n Q ->
  qmi_call Sig F0 n n (length Sig) q Q x = Ok (q', Q', Some (g, ep)) ->
  0 <= ep /\
  forall z, psd n (qmi_mat n F0 Sig t z) -> dot (length Sig) g (fun i => z i - x i) + ep <= 0.
Proof.
  intros n d s m F0 Sig q q' Q Q' x t g ep Hm HS Ht HQ H.
  destruct (C60_poly_matrix n d s m Hm) as (D & Sig' & _ & E & _ & Hs & _).
  rewrite HS in E. injection E as <-. eapply C37_qmi_cut_valid_symmetric_partial; eassumption.
Qed.
Print Assumptions C60_corr_qmi_cut_valid.
(** sites 0, 3, 1 on a line *)
Example C60_run : exists D : nat -> nat -> Q, distance_matrix 3 1 (fun i _ => match i with 1%nat => 3 | 2%nat => 1 | _ => 0 end)%Q = Ok D /\
  (D 0%nat 1%nat == 3 /\ D 2%nat 1%nat == 2 /\ D 1%nat 2%nat == 2 /\ D 2%nat 2%nat == 0)%Q.
Proof. eexists. split; [vm_compute; reflexivity|]. repeat split. Qed.
Example C60_hypotheses_met : exists Sig, poly_matrix 2 1 (fun i _ => INR i) 2 = Ok Sig /\ length Sig = 2%nat.
Proof.
  destruct (C60_poly_matrix 2 1 (fun i _ => INR i) 2 ltac:(lia)) as (D & Sig & _ & E & Hl & _).
  exists Sig. split; assumption.
Qed.

(** ** C67: the polynomial corr_poly returns, evaluated at the distance of two sites, is the
    corresponding entry of sum_k a_k Sig_k *)
Theorem C67_corr_poly_reproduces :
  forall n d s m Sig a i j, (1 <= m)%Z -> poly_matrix n d s m = Ok Sig -> (i < n)%nat -> (j < n)%nat ->
  corr_poly_eval (Z.to_nat m) a (edist d (s i) (s j)) = lin_mat Sig a i j.
Proof.
  intros n d s m Sig a i j Hm HS Hi Hj.
  destruct (C60_poly_matrix n d s m Hm) as (D & Sig' & ED & E & Hl & _ & Hk).
  rewrite HS in E. injection E as <-.
  destruct (C60_distance_matrix n d s) as (D' & E' & _ & HD). rewrite ED in E'. injection E' as <-.
  destruct (HD i j Hi Hj) as [HDij _].
  rewrite corr_poly_eval_spec, <- HDij, <- Hl. unfold lin_mat. apply rsum_ext. intros k Hkl.
  rewrite Hk by assumption. ring.
Qed.
Print Assumptions C67_corr_poly_reproduces.
Example C67_run : (corr_poly_eval 3 (fun k => inject_Z (Z.of_nat k + 1)) 2 == 1 + 2 * 2 + 3 * 4)%Q.
Proof. reflexivity. Qed.

(** ** C57 *)
Theorem C57_problem_solve :
  forall (St X V C Sc O T : Type) (sp : space St X V C Sc) (ltb : Sc -> Sc -> bool)
         (tneq : T -> T -> bool) (omega : O -> V -> T -> res (O * (C * option T)))
         max_it tol p o st t tr o' st' p' v,
  problem_solve sp ltb tneq omega max_it tol p o st t = Ok (tr, o', st', p', v) ->
  exists xb t' info,
    cutting_plane_dc sp ltb tneq omega max_it tol o st t = Ok (tr, o', st', (xb, t', info)) /\
    v = pb_value p' /\ pb_stats p' = Some (length tr) /\
    (pb_status p' = Some p_optimal <-> tneq t' t = true /\ cstatus info = smallenough) /\
    (pb_status p' = Some p_feasible <-> tneq t' t = true /\ cstatus info <> smallenough) /\
    (pb_status p' = Some p_infeasible <-> tneq t' t = false) /\
    (tneq t' t = true -> pb_value p' = Some t' /\ pb_var p' = xb).
Proof.
  intros * H. unfold problem_solve in H.
  apply bind_ok in H as ([[[tr1 o1] st1] [[xb fb] info]] & Hdc & H). cbv zeta in H. injection H as -> -> -> Hp Hv.
  exists xb, fb, info. split; [exact Hdc|].
  destruct (C04_dc_last_improvement _ _ _ _ _ _ _ _ _ _ _ _ _ _ _ _ _ _ _ _ _ _ Hdc) as (_ & _ & Hf & Hn & _).
  split; [congruence|]. subst p'. rewrite <- Hn, <- Hf.
  destruct (feasible info); cbn [pb_stats pb_status pb_value pb_var].
  - split; [reflexivity|]. destruct (cstatus info); cbn; intuition congruence.
  - split; [reflexivity|]. intuition congruence.
Qed.
Print Assumptions C57_problem_solve.
(** If the comparison t != t_orig is irreflexive (not for NaN), an improved run has a best point. *)
Theorem C57_improved_has_point :
  forall (St X V C Sc O T : Type) (sp : space St X V C Sc) (ltb : Sc -> Sc -> bool)
         (tneq : T -> T -> bool) (omega : O -> V -> T -> res (O * (C * option T)))
         max_it tol p o st t tr o' st' p' v,
  tneq t t = false ->
  problem_solve sp ltb tneq omega max_it tol p o st t = Ok (tr, o', st', p', v) ->
  pb_status p' <> Some p_infeasible -> exists x t', pb_var p' = Some x /\ v = Some t' /\
     exists e, In e tr /\ d_t1 e = Some t'.
Proof.
  intros * Hirr H Hs. apply C57_problem_solve in H as (xb & t' & info & Hdc & -> & _ & _ & _ & Hi & Hv).
  destruct (tneq t' t) eqn:En; [|exfalso; apply Hs, Hi; reflexivity].
  destruct (Hv eq_refl) as [-> ->].
  destruct (C04_dc_last_improvement _ _ _ _ _ _ _ _ _ _ _ _ _ _ _ _ _ _ _ _ _ _ Hdc) as (_ & Hb & _).
  destruct Hb as [(_ & -> & _)|(tr1 & e & tr2 & -> & _ & He & Hx)]; [congruence|].
  destruct xb as [x|]; [|congruence]. exists x, t'. split; [reflexivity|]. split; [reflexivity|].
  exists e. split; [|assumption]. apply in_or_app. right. left. reflexivity.
Qed.
Print Assumptions C57_improved_has_point.
Definition demo_solve p st t := problem_solve ell1d_space Qltb qneq demo_opt 20 (1 # 1000) p tt st t.
Example C57_run : exists tr st' p', demo_solve problem_init demo_itv 0%Q = Ok (tr, tt, st', p', Some 3%Q) /\
  pb_status p' = Some p_optimal /\ pb_var p' = Some 3%Q.
Proof. do 3 eexists. split; [vm_compute; reflexivity|]. split; reflexivity. Qed.

(** ** C58 *)
(** Full claim: after an infeasible solve the value is None.  True on a fresh Problem: *)
Theorem C58_first_infeasible_has_no_value_partial :
  forall (St X V C Sc O T : Type) (sp : space St X V C Sc) (ltb : Sc -> Sc -> bool)
         (tneq : T -> T -> bool) (omega : O -> V -> T -> res (O * (C * option T)))
         max_it tol p o st t tr o' st' p' v,
  pb_value p = None ->
  problem_solve sp ltb tneq omega max_it tol p o st t = Ok (tr, o', st', p', v) ->
  pb_status p' = Some p_infeasible -> v = None /\ pb_value p' = None.
Proof.
  intros * Hp H Hs. unfold problem_solve in H.
  apply bind_ok in H as ([[[tr1 o1] st1] [[xb fb] info]] & Hdc & H). cbv zeta in H. injection H as -> -> -> Hp' Hv.
  subst. destruct (feasible info); cbn in *; [destruct (cstatus info); discriminate|auto].
Qed.
Print Assumptions C58_first_infeasible_has_no_value_partial.
(** a new Problem reports nothing, and an infeasible first solve leaves no value and no point *)
Theorem C58_new_problem :
  forall (St X V C Sc O T : Type) (sp : space St X V C Sc) (ltb : Sc -> Sc -> bool)
         (tneq : T -> T -> bool) (omega : O -> V -> T -> res (O * (C * option T)))
         max_it tol o st t tr o' st' p' v,
  let p := problem_init in
  pb_value p = None /\ pb_var p = None /\ pb_status p = None /\ pb_stats p = None /\
  (problem_solve sp ltb tneq omega max_it tol p o st t = Ok (tr, o', st', p', v) ->
   pb_status p' = Some p_infeasible -> v = None /\ pb_value p' = None /\ pb_var p' = None).
Proof.
  intros *. cbv zeta. do 4 (split; [reflexivity|]). intros H Hs. unfold problem_solve in H.
  apply bind_ok in H as ([[[tr1 o1] st1] [[xb fb] info]] & Hdc & H). cbv zeta in H. injection H as -> -> -> Hp' Hv.
  subst. destruct (feasible info); cbn in *; [destruct (cstatus info); discriminate|auto].
Qed.
Print Assumptions C58_new_problem.
(** On a Problem that was solved before, the earlier value is returned: *)
Theorem C58_stale_value_refuted :
  ~ (forall (St X V C Sc O T : Type) (sp : space St X V C Sc) (ltb : Sc -> Sc -> bool)
         (tneq : T -> T -> bool) (omega : O -> V -> T -> res (O * (C * option T)))
         max_it tol p0 o0 st0 t0 tr0 p o st t v0 tr o' st' p' v,
     p0 = problem_init ->
     problem_solve sp ltb tneq omega max_it tol p0 o0 st0 t0 = Ok (tr0, o, st, p, v0) ->
     problem_solve sp ltb tneq omega max_it tol p o st t = Ok (tr, o', st', p', v) ->
     pb_status p' = Some p_infeasible -> v = None).
Proof.
  intros H.
  assert (E1 : exists tr st p, demo_solve problem_init demo_itv 0%Q = Ok (tr, tt, st, p, Some 3%Q) /\
    exists tr' st' p', demo_solve p st 10%Q = Ok (tr', tt, st', p', Some 3%Q) /\ pb_status p' = Some p_infeasible).
  { do 3 eexists. split; [vm_compute; reflexivity|]. do 3 eexists. split; [vm_compute; reflexivity|]. reflexivity. }
  destruct E1 as (tr & st & p & E1 & tr' & st' & p' & E2 & E3).
  specialize (H _ _ _ _ _ _ _ _ _ _ _ _ _ _ _ _ _ _ _ _ _ _ _ _ _ _ _ _ eq_refl E1 E2 E3). discriminate.
Qed.
Print Assumptions C58_stale_value_refuted.
Example C58_hypotheses_met : exists tr st' p', demo_solve problem_init demo_itv 10%Q = Ok (tr, tt, st', p', None) /\
  pb_status p' = Some p_infeasible.
Proof. do 3 eexists. split; [vm_compute; reflexivity|]. reflexivity. Qed.

(** ** C68: what an infeasible solve leaves behind *)
Theorem C68_infeasible_keeps_previous_result :
  forall (St X V C Sc O T : Type) (sp : space St X V C Sc) (ltb : Sc -> Sc -> bool)
         (tneq : T -> T -> bool) (omega : O -> V -> T -> res (O * (C * option T)))
         max_it tol p o st t tr o' st' p' v,
  problem_solve sp ltb tneq omega max_it tol p o st t = Ok (tr, o', st', p', v) ->
  pb_status p' = Some p_infeasible ->
  pb_value p' = pb_value p /\ pb_var p' = pb_var p /\ v = pb_value p.
Proof.
  intros * H Hs. unfold problem_solve in H.
  apply bind_ok in H as ([[[tr1 o1] st1] [[xb fb] info]] & Hdc & H). cbv zeta in H. injection H as -> -> -> Hp' Hv.
  subst. destruct (feasible info); cbn in *; [destruct (cstatus info); discriminate|auto].
Qed.
Print Assumptions C68_infeasible_keeps_previous_result.
Example C68_run : exists tr st p, demo_solve problem_init demo_itv 0%Q = Ok (tr, tt, st, p, Some 3%Q) /\
  exists tr' st' p', demo_solve p st 10%Q = Ok (tr', tt, st', p', Some 3%Q) /\ pb_status p' = Some p_infeasible.
Proof. do 3 eexists. split; [vm_compute; reflexivity|]. do 3 eexists. split; [vm_compute; reflexivity|]. reflexivity. Qed.
