(** Property theorems about the drivers (C01, C02, C04, C05, C07, C09-C14). *)
From Coq Require Import QArith Reals Lra.
From Verif Require Import Base M_Drivers M_Ell S_Drivers P_Drivers P_BSearch.
Local Open Scope nat_scope.

(** ** C01 *)
Theorem C01_feas_only_at_approved_centre :
  forall (St X V C Sc O : Type) (sp : space St X V C Sc) (ltb : Sc -> Sc -> bool)
         (omega : O -> V -> res (O * option C)) max_it tol o st tr o' st' info,
  cutting_plane_feas sp ltb omega max_it tol o st = Ok (tr, o', st', info) ->
  feas_replay sp omega o st tr o' st' /\
  (feasible info = true -> exists tr0, tr = tr0 ++ [(centre sp st', None)]) /\
  (feasible info = false -> forall x, ~ In (x, None) tr).
Proof. intros *; exact (feas_feasible sp ltb omega max_it tol o st tr o' st' info). Qed.
Print Assumptions C01_feas_only_at_approved_centre.

(** A run: find x >= 3 in the interval [0,4]. *)
Definition demo_feas (o : unit) (x : Q) : res (unit * option (Q * Q)) :=
  if Qltb x 3 then Ok (tt, Some (-1, 3 - x)%Q) else Ok (tt, None).
Definition demo_itv : unit * ell1d Q := (tt, mkEll1d 2%Q 2%Q).

Example C01_run_feasible :
  exists tr st', cutting_plane_feas ell1d_space Qltb demo_feas 10 (1 # 100) tt demo_itv
   = Ok (tr, tt, st', {| feasible := true; num_iters := 2; cstatus := success |})
   /\ centre ell1d_space st' = (7 # 2)%Q /\ length tr = 2.
Proof. do 2 eexists; split; [vm_compute; reflexivity|]. split; reflexivity. Qed.

Definition demo_infeas (o : unit) (x : Q) : res (unit * option (Q * Q)) :=
  Ok (tt, Some (-1, 5 - x)%Q).
Example C01_run_infeasible :
  exists tr st', cutting_plane_feas ell1d_space Qltb demo_infeas 10 (1 # 100) tt demo_itv
   = Ok (tr, tt, st', {| feasible := false; num_iters := 1; cstatus := nosoln |}).
Proof. do 2 eexists; vm_compute; reflexivity. Qed.

(** ** C02 *)
Theorem C02_feas_iterations_and_status :
  forall (St X V C Sc O : Type) (sp : space St X V C Sc) (ltb : Sc -> Sc -> bool)
         (omega : O -> V -> res (O * option C)) max_it tol o st tr o' st' info,
  cutting_plane_feas sp ltb omega max_it tol o st = Ok (tr, o', st', info) ->
  feas_replay sp omega o st tr o' st' /\
  num_iters info = length tr /\ 1 <= length tr <= max_it /\
  exists tr0 e, tr = tr0 ++ [e] /\ Forall (fgo ltb tol) tr0 /\
                ffinal ltb tol (length tr = max_it) info e /\
                (feasible info = true -> e = (centre sp st', None)).
Proof. intros *; exact (feas_spec sp ltb omega max_it tol o st tr o' st' info). Qed.
Print Assumptions C02_feas_iterations_and_status.

Example C02_run_smallenough :
  exists tr st', cutting_plane_feas ell1d_space Qltb
                   (fun o x => Ok (tt, Some (1, 0)%Q)) 10 (1 # 1) tt demo_itv
   = Ok (tr, tt, st', {| feasible := false; num_iters := 3; cstatus := smallenough |}).
Proof. do 2 eexists; vm_compute; reflexivity. Qed.

(** ** C04 *)
Theorem C04_dc_last_improvement :
  forall (St X V C Sc O T : Type) (sp : space St X V C Sc) (ltb : Sc -> Sc -> bool)
         (tneq : T -> T -> bool) (omega : O -> V -> T -> res (O * (C * option T)))
         max_it tol o st t tr o' st' xb t' info,
  cutting_plane_dc sp ltb tneq omega max_it tol o st t = Ok (tr, o', st', (xb, t', info)) ->
  dc_replay sp omega o st t tr o' st' t' /\
  ((Forall no_t1 tr /\ t' = t /\ xb = None) \/
   (exists tr1 e tr2, tr = tr1 ++ e :: tr2 /\ Forall no_t1 tr2 /\
                      d_t1 e = Some t' /\ xb <> None)) /\
  feasible info = tneq t' t /\
  num_iters info = length tr /\ 1 <= length tr <= max_it /\
  (exists tr0 e, tr = tr0 ++ [e] /\ Forall (dgo ltb tol) tr0 /\
                 dfinal ltb tol (length tr = max_it) (cstatus info) e).
Proof.
  intros * H. apply dc_spec in H as (Hr & Hf & Hn & Hk & Hl & Hx).
  split; [assumption|]. split; [|auto].
  destruct Hx as [Hx | (tr1 & e & tr2 & stm & E & Hb & He & -> & _)]; [left; assumption|].
  right. exists tr1, e, tr2. repeat split; auto; discriminate.
Qed.
Print Assumptions C04_dc_last_improvement.

(** maximise x on [0,4] with a central cut at every feasible point *)
Definition demo_opt (o : unit) (x : Q) (t : Q) : res (unit * ((Q * Q) * option Q)) :=
  if Qltb 3 x then Ok (tt, ((1, x - 3)%Q, None))
  else if Qltb t x then Ok (tt, ((-1, 0)%Q, Some x))
  else Ok (tt, ((-1, t - x)%Q, None)).
Definition qneq (a b : Q) : bool := negb (Qeq_bool a b).
Example C04_run :
  exists tr st' info,
    cutting_plane_dc ell1d_space Qltb qneq demo_opt 20 (1 # 1000) tt demo_itv 0%Q
    = Ok (tr, tt, st', (Some 3%Q, 3%Q, info))
    /\ feasible info = true /\ cstatus info = smallenough.
Proof. do 3 eexists; split; [vm_compute; reflexivity|]. split; reflexivity. Qed.

(** ** C05, positive part: when the centre is an immutable value, the point
    returned is the one at which the returned t was reported. *)
Theorem C05_dc_xbest_value_spaces_partial :
  forall (St X V C Sc O T : Type) (sp : space St X V C Sc) (ltb : Sc -> Sc -> bool)
         (tneq : T -> T -> bool) (omega : O -> V -> T -> res (O * (C * option T)))
         max_it tol o st t tr o' st' xb t' info,
  (forall st1 st2 x, sp_deref sp st1 x = sp_deref sp st2 x) ->
  cutting_plane_dc sp ltb tneq omega max_it tol o st t = Ok (tr, o', st', (Some xb, t', info)) ->
  dc_replay sp omega o st t tr o' st' t' /\
  exists tr1 e tr2, tr = tr1 ++ e :: tr2 /\ Forall no_t1 tr2 /\
                    d_t1 e = Some t' /\ d_x e = sp_deref sp st' xb.
Proof.
  intros * Hv H. apply dc_spec in H as (Hr & _ & _ & _ & _ & Hx).
  split; [assumption|].
  destruct Hx as [(_ & _ & E) | (tr1 & e & tr2 & stm & E & Hb & He & Ex & Hd)]; [discriminate|].
  exists tr1, e, tr2. repeat split; auto. injection Ex as ->. rewrite Hd.
  apply Hv.
Qed.
Print Assumptions C05_dc_xbest_value_spaces_partial.

(** ell1d is such a space. *)
Example C05_ell1d_is_value_space :
  forall st1 st2 (x : Q), sp_deref ell1d_space st1 x = sp_deref ell1d_space st2 x.
Proof. reflexivity. Qed.

(** ** C07 *)
Theorem C07_dc_never_worse :
  forall (St X V C Sc O T : Type) (sp : space St X V C Sc) (ltb : Sc -> Sc -> bool)
         (tneq : T -> T -> bool) (omega : O -> V -> T -> res (O * (C * option T)))
         (le : T -> T -> Prop) max_it tol o st t tr o' st' xb t' info,
  (forall a, le a a) -> (forall a b c, le a b -> le b c -> le a c) ->
  (forall o x t o' c t1, omega o x t = Ok (o', (c, Some t1)) -> le t1 t) ->
  cutting_plane_dc sp ltb tneq omega max_it tol o st t = Ok (tr, o', st', (xb, t', info)) ->
  le t' t /\ (forall e t1, In e tr -> d_t1 e = Some t1 -> le t' t1).
Proof.
  intros * Hr Ht Hi H. apply dc_spec in H as (Hp & _).
  eapply dc_replay_mono; eauto.
Qed.
Print Assumptions C07_dc_never_worse.

Theorem C07_q_never_worse :
  forall (St X V C Sc O T : Type) (sp : space St X V C Sc) (ltb : Sc -> Sc -> bool)
         (tneq : T -> T -> bool)
         (omega : O -> V -> T -> bool -> res (O * (C * V * option T * bool)))
         (le : T -> T -> Prop) max_it tol o st t tr o' st' xb t' info,
  (forall a, le a a) -> (forall a b c, le a b -> le b c -> le a c) ->
  (forall o x t b o' c x0 t1 m, omega o x t b = Ok (o', (c, x0, Some t1, m)) -> le t1 t) ->
  cutting_plane_q sp ltb tneq omega max_it tol o st t = Ok (tr, o', st', (xb, t', info)) ->
  le t' t /\ (forall e t1, In e tr -> q_t1 e = Some t1 -> le t' t1).
Proof.
  intros * Hr Ht Hi H. apply q_spec in H as (Hp & _).
  eapply q_replay_mono; eauto.
Qed.
Print Assumptions C07_q_never_worse.

(** The demo oracle reports only larger values (le is >= for maximisation). *)
Example C07_demo_improves :
  forall o x t o' c t1, demo_opt o x t = Ok (o', (c, Some t1)) -> (t <= t1)%Q.
Proof.
  intros o x t o' c t1. unfold demo_opt.
  destruct (Qltb 3 x); [discriminate|]. destruct (Qltb t x) eqn:E; [|discriminate].
  intros H; injection H as _ <- <-. unfold Qltb in E. apply negb_true_iff in E.
  destruct (Qlt_le_dec t x) as [L|L]; [apply Qlt_le_weak, L|].
  apply Qle_bool_iff in L. congruence.
Qed.

(** ** C09 *)
Theorem C09_q_snapshot_and_retry :
  forall (St X V C Sc O T : Type) (sp : space St X V C Sc) (ltb : Sc -> Sc -> bool)
         (tneq : T -> T -> bool)
         (omega : O -> V -> T -> bool -> res (O * (C * V * option T * bool)))
         max_it tol o st t tr o' st' xb t' info,
  cutting_plane_q sp ltb tneq omega max_it tol o st t = Ok (tr, o', st', (xb, t', info)) ->
  q_replay sp omega o st t tr o' st' t' /\
  ((Forall qno_t1 tr /\ t' = t /\ xb = None) \/
   (exists tr1 e tr2, tr = tr1 ++ e :: tr2 /\ Forall qno_t1 tr2 /\
                      q_t1 e = Some t' /\ xb = Some (q_x0 e))) /\
  (forall e tr2, tr = e :: tr2 -> q_retry e = false) /\
  (forall tr1 e e' tr2, tr = tr1 ++ e :: e' :: tr2 ->
     (q_retry e' = true <-> q_status e = noeffect)) /\
  ((forall st c st1 q, sp_update sp st c = Ok (st1, (noeffect, q)) ->
                       centre sp st1 = centre sp st) ->
   forall tr1 e e' tr2, tr = tr1 ++ e :: e' :: tr2 ->
     q_retry e' = true -> q_x e' = q_x e).
Proof.
  intros * H. apply q_spec in H as (Hr & _ & _ & _ & Hret & _ & Hx).
  split; [assumption|]. split; [assumption|]. split; [|split].
  - intros e tr2 ->. destruct Hret as [[Ha _] _].
    destruct (q_retry e); [specialize (Ha eq_refl); discriminate|reflexivity].
  - intros *; eapply retries_pairs; eauto.
  - intros Hne tr1 e e' tr2 E Hq. eapply q_replay_same_centre; eauto.
    eapply retries_pairs; eauto.
Qed.
Print Assumptions C09_q_snapshot_and_retry.

(** A run with a retry: the first cut has no effect, the second (alternative)
    cut is a real one. *)
Definition demo_q (o : nat) (x : Q) (t : Q) (retry : bool)
  : res (nat * ((Q * Q) * Q * option Q * bool)) :=
  match o with
  | 0 => Ok (1, ((1, -10)%Q, (x + (1 # 4))%Q, Some 7%Q, true))
  | _ => Ok (2, ((1, 5)%Q, x, None, false))
  end.
Example C09_run :
  exists tr st',
    cutting_plane_q ell1d_space Qltb qneq demo_q 20 (1 # 1000) 0 demo_itv 0%Q
    = Ok (tr, 2, st', (Some (9 # 4)%Q, 7%Q,
          {| feasible := true; num_iters := 2; cstatus := nosoln |}))
    /\ map q_retry tr = [false; true].
Proof. do 2 eexists; split; [vm_compute; reflexivity|]. reflexivity. Qed.

(** ** C10 *)
Theorem C10_q_stop_reasons :
  forall (St X V C Sc O T : Type) (sp : space St X V C Sc) (ltb : Sc -> Sc -> bool)
         (tneq : T -> T -> bool)
         (omega : O -> V -> T -> bool -> res (O * (C * V * option T * bool)))
         max_it tol o st t tr o' st' xb t' info,
  cutting_plane_q sp ltb tneq omega max_it tol o st t = Ok (tr, o', st', (xb, t', info)) ->
  q_replay sp omega o st t tr o' st' t' /\
  feasible info = tneq t' t /\
  num_iters info = length tr /\ 1 <= length tr <= max_it /\
  exists tr0 e, tr = tr0 ++ [e] /\ Forall (qgo ltb tol) tr0 /\
    qfinal ltb tol (length tr = max_it) (cstatus info) e /\
    (cstatus info = q_status e \/ cstatus info = smallenough) /\
    (length tr < max_it ->
       q_status e = nosoln \/ (q_status e = noeffect /\ q_more e = false) \/
       ltb (q_tsq e) tol = true).
Proof.
  intros * H. apply q_spec in H as (Hr & Hf & Hn & Hk & _ & (tr0 & e & E & Hg & Hl) & _).
  split; [assumption|]. split; [assumption|]. split; [assumption|]. split; [assumption|].
  exists tr0, e. split; [assumption|]. split; [assumption|]. split; [assumption|].
  destruct Hl as (L1 & L2 & L3).
  destruct (status_eqb (q_status e) nosoln) eqn:E1.
  { apply status_eqb_eq in E1. rewrite (L1 E1), E1. auto. }
  apply status_eqb_neq in E1.
  destruct (status_eqb (q_status e) noeffect) eqn:E2;
    [apply status_eqb_eq in E2|apply status_eqb_neq in E2];
    destruct (q_more e) eqn:E3.
  2: { rewrite (L2 E2 eq_refl), E2; auto. }
  all: destruct L3 as [L3 L4]; try congruence; auto;
       destruct (ltb (q_tsq e) tol) eqn:E4;
       [rewrite (L3 eq_refl); auto
       |destruct (L4 eq_refl) as [L5 L6]; split; [auto|]; rewrite L6; intros HH; lia].
Qed.
Print Assumptions C10_q_stop_reasons.

Example C10_run_noeffect :
  exists tr st' xb,
    cutting_plane_q ell1d_space Qltb qneq
      (fun (o : unit) x t b => Ok (tt, ((1, -10)%Q, x, None, negb b))) 20 (1 # 1000) tt demo_itv 0%Q
    = Ok (tr, tt, st', (xb, 0%Q,
          {| feasible := false; num_iters := 2; cstatus := noeffect |})).
Proof. do 3 eexists; vm_compute; reflexivity. Qed.

(** ** C11 *)
Theorem C11_zero_iterations_raise :
  (forall (St X V C Sc O : Type) (sp : space St X V C Sc) ltb
          (omega : O -> V -> res (O * option C)) tol o st,
     cutting_plane_feas sp ltb omega 0 tol o st = Raise UnboundLocalError) /\
  (forall (St X V C Sc O T : Type) (sp : space St X V C Sc) ltb tneq
          (omega : O -> V -> T -> res (O * (C * option T))) tol o st t,
     cutting_plane_dc sp ltb tneq omega 0 tol o st t = Raise UnboundLocalError) /\
  (forall (St X V C Sc O T : Type) (sp : space St X V C Sc) ltb tneq
          (omega : O -> V -> T -> bool -> res (O * (C * V * option T * bool))) tol o st t,
     cutting_plane_q sp ltb tneq omega 0 tol o st t = Raise UnboundLocalError) /\
  (forall (T Sc O : Type) tau_of mid ltb neq (omega : O -> T -> res (O * bool))
          (tol : Sc) o itv,
     bsearch tau_of mid ltb neq omega 0 tol o itv = Raise UnboundLocalError).
Proof. repeat split; intros; try reflexivity. destruct itv; reflexivity. Qed.
Print Assumptions C11_zero_iterations_raise.

Theorem C11_positive_limit_never_raises :
  (forall (St X V C Sc O : Type) (sp : space St X V C Sc) ltb
          (omega : O -> V -> res (O * option C)) max_it tol o st,
     (forall o x, exists r, omega o x = Ok r) ->
     (forall st c, exists r, sp_update sp st c = Ok r) -> max_it <> 0 ->
     exists r, cutting_plane_feas sp ltb omega max_it tol o st = Ok r) /\
  (forall (St X V C Sc O T : Type) (sp : space St X V C Sc) ltb tneq
          (omega : O -> V -> T -> res (O * (C * option T))) max_it tol o st t,
     (forall o x t, exists r, omega o x t = Ok r) ->
     (forall st c, exists r, sp_update sp st c = Ok r) -> max_it <> 0 ->
     exists r, cutting_plane_dc sp ltb tneq omega max_it tol o st t = Ok r) /\
  (forall (St X V C Sc O T : Type) (sp : space St X V C Sc) ltb tneq
          (omega : O -> V -> T -> bool -> res (O * (C * V * option T * bool)))
          max_it tol o st t,
     (forall o x t b, exists r, omega o x t b = Ok r) ->
     (forall st c, exists r, sp_update sp st c = Ok r) -> max_it <> 0 ->
     exists r, cutting_plane_q sp ltb tneq omega max_it tol o st t = Ok r) /\
  (forall (T Sc O : Type) tau_of mid ltb neq (omega : O -> T -> res (O * bool))
          max_it (tol : Sc) o itv,
     (forall o t, exists r, omega o t = Ok r) -> max_it <> 0 ->
     exists r, bsearch tau_of mid ltb neq omega max_it tol o itv = Ok r).
Proof.
  split; [|split; [|split]]; intros *.
  - apply feas_total.
  - apply dc_total.
  - apply q_total.
  - apply bsearch_total.
Qed.
Print Assumptions C11_positive_limit_never_raises.

(** ** C12 *)
Theorem C12_bsearch_brackets_threshold :
  forall (O : Type) (omega : O -> R -> res (O * bool)) (P : R -> Prop)
         max_it tol o lower upper tr o' u info,
  decides omega P -> (forall a b, (a <= b)%R -> P a -> P b) ->
  ~ P lower -> P upper ->
  bsearch_R omega max_it tol o (lower, upper) = Ok (tr, o', (u, info)) ->
  P u /\ (u <= upper)%R /\
  (exists l, (lower <= l)%R /\ ~ P l /\
     (u - l = (upper - lower) / 2 ^ length tr)%R /\
     (forall x, (x <= l)%R -> ~ P x) /\ (forall x, (u <= x)%R -> P x) /\
     (cstatus info = smallenough -> ((u - l) / 2 < tol)%R)) /\
  (feasible info = true <-> u <> upper) /\
  (cstatus info = smallenough \/ cstatus info = success /\ length tr = max_it).
Proof. intros O omega P *; exact (bsearch_R_bracket omega P _ _ _ _ _ _ _ _ _). Qed.
Print Assumptions C12_bsearch_brackets_threshold.

(** Hypotheses are met by "x >= 1/3" on [0,1]; the same search over Fractions runs: *)
Definition demo_thr (o : unit) (x : R) : res (unit * bool) := Ok (tt, Rleb (1 / 3) x).
Example C12_hypotheses_met :
  decides demo_thr (fun x => (1 / 3 <= x)%R) /\
  (forall a b, (a <= b)%R -> (1 / 3 <= a)%R -> (1 / 3 <= b)%R) /\
  ~ (1 / 3 <= 0)%R /\ (1 / 3 <= 1)%R.
Proof.
  split; [|split; [intros; lra|split; lra]].
  intros o t o' b H; injection H as <- <-. apply Rleb_true.
Qed.
Example C12_run :
  exists tr u, bsearch_Q (fun (o : unit) x => Ok (tt, Qle_bool (1 # 3) x)) 100 (1 # 10) tt (0, 1)%Q
  = Ok (tr, tt, (u, {| feasible := true; num_iters := 3; cstatus := smallenough |}))
    /\ (u == 3 # 8)%Q.
Proof. do 2 eexists. split; [vm_compute; reflexivity|]. reflexivity. Qed.

(** ** C13 *)
Theorem C13_bsearch_least_integer :
  forall (O : Type) (omega : O -> Z -> res (O * bool)) (P : Z -> Prop)
         max_it (tol : Q) o lower upper tr o' u info,
  decides omega P -> (forall a b, (a <= b)%Z -> P a -> P b) ->
  ~ P lower -> P upper -> (tol <= 1 # 2)%Q ->
  (upper - lower <= 2 ^ Z.of_nat max_it)%Z ->
  bsearch_Z omega max_it tol o (lower, upper) = Ok (tr, o', (u, info)) ->
  P u /\ (forall t, (t < u)%Z -> ~ P t) /\ cstatus info = success /\ length tr = max_it.
Proof. intros O omega P *; exact (bsearch_Z_least omega P _ _ _ _ _ _ _ _ _). Qed.
Print Assumptions C13_bsearch_least_integer.

Definition demo_int (o : unit) (x : Z) : res (unit * bool) := Ok (tt, (37 <=? x * x * x)%Z).
Example C13_hypotheses_met :
  decides demo_int (fun x => (37 <= x * x * x)%Z) /\
  ~ (37 <= (-5) * (-5) * (-5))%Z /\ (37 <= 20 * 20 * 20)%Z /\
  (20 - (-5) <= 2 ^ Z.of_nat 5)%Z /\
  exists tr, bsearch_Z demo_int 5 (1 # 100) tt (-5, 20)%Z
  = Ok (tr, tt, (4%Z, {| feasible := true; num_iters := 4; cstatus := success |})).
Proof.
  split. { intros o t o' b H; injection H as <- <-. apply Z.leb_le. }
  split; [lia|]. split; [lia|]. split; [cbn; lia|].
  eexists; vm_compute; reflexivity.
Qed.

(** ** C14 *)
(** True when the search stops with smallenough, one too few when it exhausts max_it. *)
Theorem C14_bsearch_num_iters_partial :
  forall (T Sc O : Type) tau_of mid ltb neq (omega : O -> T -> res (O * bool))
         max_it (tol : Sc) o lo hi tr o' u info,
  bsearch tau_of mid ltb neq omega max_it tol o (lo, hi) = Ok (tr, o', (u, info)) ->
  (exists l, bs_replay omega o lo hi tr o' l u) /\
  (cstatus info = smallenough -> num_iters info = length tr) /\
  (cstatus info <> smallenough -> num_iters info + 1 = length tr /\ length tr = max_it).
Proof.
  intros * H. apply bsearch_spec in H as (l & Hr & _ & _ & Hs).
  split; [eauto|].
  destruct Hs as [(A & _ & B & _)|(A & B & C)]; split; intros E; congruence || auto.
Qed.
Print Assumptions C14_bsearch_num_iters_partial.

(** The full claim (num_iters = number of probes, always) is false. *)
Theorem C14_bsearch_num_iters_refuted :
  ~ (forall (T Sc O : Type) tau_of mid ltb neq (omega : O -> T -> res (O * bool))
            max_it (tol : Sc) o lo hi tr o' u info,
     bsearch tau_of mid ltb neq omega max_it tol o (lo, hi) = Ok (tr, o', (u, info)) ->
     num_iters info = length tr).
Proof.
  intros H.
  assert (exists tr o' u info,
    bsearch_Z demo_int 5 (1 # 100) tt (-5, 20)%Z = Ok (tr, o', (u, info)) /\
    num_iters info <> length tr) as (tr & o' & u & info & E & N).
  { do 4 eexists; split; [vm_compute; reflexivity|]. cbn; discriminate. }
  apply N. eapply H. exact E.
Qed.
Print Assumptions C14_bsearch_num_iters_refuted.
