(** Property theorems about the low-pass filter oracles (C44-C47, C74). *)
From Coq Require Import Reals Lra QArith.
From Verif Require Import Base M_Drivers S_Drivers P_Drivers S_LinAlg P_LinAlg M_Ell S_Ell P_EllCalc P_Ell P_Ell3 P_Ell4 P_Lmi2
  M_Lowpass S_Lowpass P_Lowpass T_Drivers T_Ell T_Net.
Local Close Scope Q_scope.
Local Open Scope R_scope.

(** ** C44 *)
Theorem C44_lowpass_reports_iff_feasible :
  forall (P : lowpass R) s x Spsq, (0 < lp_n P)%nat -> (0 < lp_Ns P)%nat -> counters_ok P s ->
  exists s' c t1, lowpass_call P s x Spsq = Ok (s', (c, t1)) /\ counters_ok P s' /\
    (t1 <> None <-> filter_ok P Spsq x) /\
    (forall m, t1 = Some m -> is_stop_max P x m /\ m <= Spsq) /\
    (lp_more s' = false <-> spectrum_ok P Spsq x).
Proof.
  intros P s x Spsq Hn Hs Hc. pose proof (lowpass_call_spec P s x Spsq Hn Hc) as H.
  destruct (lowpass_call P s x Spsq) as [[s' [[g b] t1]]|e]; [|lia].
  destruct H as (H1 & _ & H2 & H3 & _). exists s', (g, b), t1. split; [reflexivity|]. split; [exact H1|].
  destruct t1 as [m|].
  - destruct H3 as [H3 H4]. split; [split; [auto|discriminate]|]. split; [|exact H2].
    intros m' [= <-]. split; [exact H4|]. destruct H4 as [(k & Hk & ->) _]. destruct H3 as [(_ & H3 & _) _].
    apply H3, Hk.
  - destruct H3 as [H3 _]. split; [split; [congruence|tauto]|]. split; [discriminate|exact H2].
Qed.
Print Assumptions C44_lowpass_reports_iff_feasible.
(** In every arithmetic the verdict is the conjunction of the comparisons of all rows, whatever the
    counters are. *)
Theorem C44_verdict_any_arithmetic :
  forall (A : Type) (HA : Num A) (P : lowpass A) s x Spsq s' c t1, counters_ok P s ->
  lowpass_call P s x Spsq = Ok (s', (c, t1)) ->
  let dotn := ndot (lp_n P) in
  let rows_ok :=
    (forall k, (k < lp_Np P)%nat -> orb (nltb (lp_Upsq P) (dotn (lp_Ap P k) x)) (nltb (dotn (lp_Ap P k) x) (lp_Lpsq P)) = false) /\
    (forall k, (k < lp_Ns P)%nat -> orb (nltb Spsq (dotn (lp_As P k) x)) (nltb (dotn (lp_As P k) x) nzero) = false) /\
    (forall k, (k < lp_Nr P)%nat -> nltb (dotn (lp_Anr P k) x) nzero = false) in
  counters_ok P s' /\ (lp_more s' = false <-> rows_ok) /\ (t1 <> None <-> rows_ok /\ nltb (x 0%nat) nzero = false).
Proof. intros A HA P s x Spsq s' c t1 Hs H. exact (lowpass_call_any P s x Spsq s' c t1 Hs H). Qed.
Print Assumptions C44_verdict_any_arithmetic.
(** With an empty stop band the feasible points raise IndexError, and nothing else raises. *)
Theorem C44_empty_stopband_raises :
  forall (P : lowpass R) s x Spsq e, (0 < lp_n P)%nat -> counters_ok P s ->
  lowpass_call P s x Spsq = Raise e <-> e = IndexError /\ lp_Ns P = 0%nat /\ filter_ok P Spsq x.
Proof.
  intros P s x Spsq e Hn Hc. pose proof (lowpass_call_spec P s x Spsq Hn Hc) as H.
  destruct (lowpass_call P s x Spsq) as [[s' [[g b] t1]]|e'].
  - split; [discriminate|]. intros (_ & E0 & Hf). destruct H as (_ & _ & _ & H & _). destruct t1 as [m|].
    + destruct H as [_ [(k & Hk & _) _]]. lia.
    + tauto.
  - destruct H as (-> & H). split; [intros [= <-]; tauto|intros (-> & _); reflexivity].
Qed.
Print Assumptions C44_empty_stopband_raises.

(** a new object: counters at the first rows, no alternative ruled out *)
Theorem C44_new_oracle : forall (A : Type) (P : lowpass A),
  counters_ok P lp_init /\ lp_more lp_init = true /\
  round_robin (lp_iAp lp_init) (lp_Np P) = seq 0 (lp_Np P) /\ round_robin (lp_iAs lp_init) (lp_Ns P) = seq 0 (lp_Ns P) /\
  round_robin (lp_iAnr lp_init) (lp_Nr P) = seq 0 (lp_Nr P).
Proof.
  intros A P. unfold counters_ok, round_robin. cbn [lp_iAp lp_iAs lp_iAnr lp_more lp_init seq].
  rewrite !Nat.sub_0_r, !app_nil_r. repeat split; lia.
Qed.
Print Assumptions C44_new_oracle.
(** two coefficients; pass band row (1, 2), stop band row (1, -2), another frequency (1, 0) *)
Definition vec2 {A} (d a b : A) : nat -> A := fun i => match i with 0%nat => a | 1%nat => b | _ => d end.
Definition lpR : lowpass R :=
  {| lp_n := 2; lp_Np := 1; lp_Ap := fun _ => vec2 0 1 2; lp_Ns := 1; lp_As := fun _ => vec2 0 1 (-2);
     lp_Nr := 1; lp_Anr := fun _ => vec2 0 1 0; lp_Lpsq := 9 / 10; lp_Upsq := 11 / 10 |}.
Lemma lpR_ok S x : filter_ok lpR S x <->
  (9 / 10 <= x 0%nat + 2 * x 1%nat <= 11 / 10 /\ 0 <= x 0%nat - 2 * x 1%nat <= S /\ 0 <= x 0%nat) /\ 0 <= x 0%nat.
Proof.
  unfold filter_ok, spectrum_ok, lpR, dot; cbn. split.
  - intros [(H1 & H2 & H3) H4]. specialize (H1 0%nat ltac:(lia)). specialize (H2 0%nat ltac:(lia)). lra.
  - intros [(H1 & H2 & H3) H4]. repeat split; intros; lra.
Qed.
(** which row is cut on: the first violated one, counted cyclically from the counter, which then moves behind it *)
Definition first_from (N i : nat) (bad : nat -> Prop) (k : nat) : Prop :=
  (k < N)%nat /\ bad k /\ forall j, (j < N)%nat -> bad j -> ((k + N - i) mod N <= (j + N - i) mod N)%nat.
Lemma rr_offset N i (Hi : (i <= N)%nat) : forall a k b, round_robin i N = a ++ k :: b ->
  (k < N)%nat /\ ((k + N - i) mod N = length a)%nat.
Proof.
  intros a k b E.
  assert (L : length (round_robin i N) = N) by (unfold round_robin; rewrite app_length, !seq_length; lia).
  assert (Hk : nth (length a) (round_robin i N) 0%nat = k) by (rewrite E, app_nth2, Nat.sub_diag by lia; reflexivity).
  assert (La : (length a < N)%nat) by (rewrite <- L, E, app_length; cbn; lia).
  unfold round_robin in Hk. destruct (Nat.lt_ge_cases (length a) (N - i)) as [H|H].
  - rewrite app_nth1, seq_nth in Hk by (rewrite ?seq_length; lia). subst k. split; [lia|].
    replace (i + length a + N - i)%nat with (length a + 1 * N)%nat by lia. rewrite Nat.mod_add by lia. apply Nat.mod_small. exact La.
  - rewrite app_nth2, seq_length, seq_nth in Hk by (rewrite ?seq_length; lia). subst k. split; [lia|].
    replace (0 + (length a - (N - i)) + N - i)%nat with (length a) by lia. apply Nat.mod_small. exact La.
Qed.
Lemma rr_first N i (bad : nat -> Prop) a k b : (i <= N)%nat -> round_robin i N = a ++ k :: b -> bad k ->
  (forall j, In j a -> ~ bad j) -> first_from N i bad k.
Proof.
  intros Hi E Hk Ha. destruct (rr_offset N i Hi a k b E) as [HkN Ho]. split; [exact HkN|]. split; [exact Hk|].
  intros j Hj Hb. rewrite Ho. apply (round_robin_in i N j Hi) in Hj. apply in_split in Hj as (a' & b' & E').
  destruct (rr_offset N i Hi a' j b' E') as [_ ->].
  destruct (Nat.le_gt_cases (length a) (length a')) as [?|Hlt]; [assumption|]. exfalso. apply (Ha j); [|exact Hb].
  assert (nth (length a') (round_robin i N) 0%nat = j) by (rewrite E', app_nth2, Nat.sub_diag by lia; reflexivity).
  rewrite E, app_nth1 in H by lia. rewrite <- H. apply nth_In. exact Hlt.
Qed.
Lemma pass_loop_split (P : lowpass R) x : forall ks k c, pass_loop P ks x = Ok (Some (k, c)) ->
  exists a b, ks = a ++ k :: b /\ (forall j, In j a -> lp_Lpsq P <= dot (lp_n P) (lp_Ap P j) x <= lp_Upsq P) /\
    ~ (lp_Lpsq P <= dot (lp_n P) (lp_Ap P k) x <= lp_Upsq P) /\ (fst c = lp_Ap P k \/ fst c = vopp (lp_Ap P k)).
Proof.
  induction ks as [|k0 ks IH]; intros k c E; cbn [pass_loop] in E; [discriminate|].
  apply bind_ok in E as (a & Ea & E). unfold row in Ea. destruct (Nat.ltb k0 _); [injection Ea as <-|discriminate].
  change (ndot (lp_n P)) with (dot (lp_n P)) in E. cbv zeta in E.
  destruct (nltb (lp_Upsq P) _) eqn:B1; [apply Rltb_true in B1; injection E as <- <-; exists [], ks; cbn; repeat split; [tauto..|lra|auto]|].
  destruct (nltb _ (lp_Lpsq P)) eqn:B2; [apply Rltb_true in B2; injection E as <- <-; exists [], ks; cbn; repeat split; [tauto..|lra|auto]|].
  apply Rltb_false in B1, B2. destruct (IH k c E) as (a & b & -> & H1 & H2). exists (k0 :: a), b.
  split; [reflexivity|]. split; [|exact H2]. intros j [<-|Hj]; [lra|auto].
Qed.
Lemma stop_loop_split (P : lowpass R) x S : forall ks fm im k c, stop_loop P ks x S fm im = Ok (inl (k, c)) ->
  exists a b, ks = a ++ k :: b /\ (forall j, In j a -> 0 <= dot (lp_n P) (lp_As P j) x <= S) /\
    ~ (0 <= dot (lp_n P) (lp_As P k) x <= S) /\ (fst c = lp_As P k \/ fst c = vopp (lp_As P k)).
Proof.
  induction ks as [|k0 ks IH]; intros fm im k c E; cbn [stop_loop] in E; [discriminate|].
  apply bind_ok in E as (a & Ea & E). unfold row in Ea. destruct (Nat.ltb k0 _); [injection Ea as <-|discriminate].
  change (ndot (lp_n P)) with (dot (lp_n P)) in E. cbv zeta in E.
  destruct (nltb S _) eqn:B1; [apply Rltb_true in B1; injection E as <- <-; exists [], ks; cbn; repeat split; [tauto..|lra|auto]|].
  destruct (nltb (dot (lp_n P) (lp_As P k0) x) nzero) eqn:B2;
    [apply Rltb_true in B2; change (@nzero R RNum) with 0 in B2; injection E as <- <-; exists [], ks; cbn; repeat split; [tauto..|lra|auto]|].
  apply Rltb_false in B1, B2. change (@nzero R RNum) with 0 in B2.
  assert (exists fm' im', stop_loop P ks x S fm' im' = Ok (inl (k, c))) as (fm' & im' & E')
    by (destruct (match fm with Some m => _ | None => _ end); eauto).
  destruct (IH fm' im' k c E') as (a & b & -> & H1 & H2). exists (k0 :: a), b.
  split; [reflexivity|]. split; [|exact H2]. intros j [<-|Hj]; [lra|auto].
Qed.
Lemma nonneg_loop_split (P : lowpass R) x : forall ks k c, nonneg_loop P ks x = Ok (Some (k, c)) ->
  exists a b, ks = a ++ k :: b /\ (forall j, In j a -> 0 <= dot (lp_n P) (lp_Anr P j) x) /\
    ~ (0 <= dot (lp_n P) (lp_Anr P k) x) /\ fst c = vopp (lp_Anr P k).
Proof.
  induction ks as [|k0 ks IH]; intros k c E; cbn [nonneg_loop] in E; [discriminate|].
  apply bind_ok in E as (a & Ea & E). unfold row in Ea. destruct (Nat.ltb k0 _); [injection Ea as <-|discriminate].
  change (ndot (lp_n P)) with (dot (lp_n P)) in E. cbv zeta in E.
  destruct (nltb _ nzero) eqn:B1; [apply Rltb_true in B1; change (@nzero R RNum) with 0 in B1; injection E as <- <-; exists [], ks; cbn; repeat split; [tauto..|lra]|].
  apply Rltb_false in B1. change (@nzero R RNum) with 0 in B1. destruct (IH k c E) as (a & b & -> & H1 & H2). exists (k0 :: a), b.
  split; [reflexivity|]. split; [|exact H2]. intros j [<-|Hj]; [lra|auto].
Qed.
Theorem C44_round_robin : forall (P : lowpass R) s x Spsq s' c t1, counters_ok P s ->
  lowpass_call P s x Spsq = Ok (s', (c, t1)) ->
  let bad_p k := ~ (lp_Lpsq P <= dot (lp_n P) (lp_Ap P k) x <= lp_Upsq P) in
  let bad_s k := ~ (0 <= dot (lp_n P) (lp_As P k) x <= Spsq) in
  let bad_r k := ~ (0 <= dot (lp_n P) (lp_Anr P k) x) in
  let ok N bad := forall k : nat, (k < N)%nat -> ~ bad k in
  (exists k, first_from (lp_Np P) (lp_iAp s) bad_p k /\ (fst c = lp_Ap P k \/ fst c = vopp (lp_Ap P k)) /\
     s' = {| lp_more := true; lp_iAnr := lp_iAnr s; lp_iAs := lp_iAs s; lp_iAp := S k |}) \/
  (ok (lp_Np P) bad_p /\
   exists k, first_from (lp_Ns P) (lp_iAs s) bad_s k /\ (fst c = lp_As P k \/ fst c = vopp (lp_As P k)) /\
     s' = {| lp_more := true; lp_iAnr := lp_iAnr s; lp_iAs := S k; lp_iAp := lp_iAp s |}) \/
  (ok (lp_Np P) bad_p /\ ok (lp_Ns P) bad_s /\
   exists k, first_from (lp_Nr P) (lp_iAnr s) bad_r k /\ fst c = vopp (lp_Anr P k) /\
     s' = {| lp_more := true; lp_iAnr := S k; lp_iAs := lp_iAs s; lp_iAp := lp_iAp s |}) \/
  (ok (lp_Np P) bad_p /\ ok (lp_Ns P) bad_s /\ ok (lp_Nr P) bad_r /\
     s' = {| lp_more := false; lp_iAnr := lp_iAnr s; lp_iAs := lp_iAs s; lp_iAp := lp_iAp s |}).
Proof.
  intros P s x S s' c t1 (C1 & C2 & C3) E bad_p bad_s bad_r ok. unfold lowpass_call in E.
  apply bind_ok in E as (r & E1 & E).
  destruct (pass_loop_spec P x (round_robin (lp_iAp s) (lp_Np P))) as (r' & E1' & H1); [intros k Hk; apply (round_robin_in _ _ _ C1), Hk|].
  assert (r' = r) by congruence. subst r'. clear E1'.
  destruct r as [[k c0]|].
  { left. exists k. destruct (pass_loop_split P x _ _ _ E1) as (a & b & Er & Ha & Hk & Hc).
    assert (c0 = c /\ s' = {| lp_more := true; lp_iAnr := lp_iAnr s; lp_iAs := lp_iAs s; lp_iAp := Datatypes.S k |}) as [-> ->] by (split; congruence).
    split; [apply (rr_first _ _ _ a k b C1 Er Hk); intros j Hj; specialize (Ha j Hj); unfold bad_p; tauto|]. auto. }
  assert (Hp : ok (lp_Np P) bad_p) by (intros k Hk; unfold bad_p; specialize (H1 k (proj2 (round_robin_in _ _ _ C1) Hk)); tauto).
  right. apply bind_ok in E as (r & E2 & E).
  destruct (stop_loop_spec P x S (round_robin (lp_iAs s) (lp_Ns P)) None 0%nat) as (r' & E2' & H2); [intros k Hk; apply (round_robin_in _ _ _ C2), Hk|].
  assert (r' = r) by congruence. subst r'. clear E2'.
  destruct r as [[k c0]|[fm im]].
  { left. split; [exact Hp|]. exists k. destruct (stop_loop_split P x S _ _ _ _ _ E2) as (a & b & Er & Ha & Hk & Hc).
    assert (c0 = c /\ s' = {| lp_more := true; lp_iAnr := lp_iAnr s; lp_iAs := Datatypes.S k; lp_iAp := lp_iAp s |}) as [-> ->] by (split; congruence).
    split; [apply (rr_first _ _ _ a k b C2 Er Hk); intros j Hj; specialize (Ha j Hj); unfold bad_s; tauto|]. auto. }
  assert (Hs : ok (lp_Ns P) bad_s) by (intros k Hk; unfold bad_s; destruct H2 as (H2 & _); specialize (H2 k (proj2 (round_robin_in _ _ _ C2) Hk)); tauto).
  right. apply bind_ok in E as (r & E3 & E).
  destruct (nonneg_loop_spec P x (round_robin (lp_iAnr s) (lp_Nr P))) as (r' & E3' & H3); [intros k Hk; apply (round_robin_in _ _ _ C3), Hk|].
  assert (r' = r) by congruence. subst r'. clear E3'.
  destruct r as [[k c0]|].
  { left. split; [exact Hp|]. split; [exact Hs|]. exists k. destruct (nonneg_loop_split P x _ _ _ E3) as (a & b & Er & Ha & Hk & Hc).
    assert (c0 = c /\ s' = {| lp_more := true; lp_iAnr := Datatypes.S k; lp_iAs := lp_iAs s; lp_iAp := lp_iAp s |}) as [-> ->] by (split; congruence).
    split; [apply (rr_first _ _ _ a k b C3 Er Hk); intros j Hj; specialize (Ha j Hj); unfold bad_r; tauto|]. auto. }
  right. split; [exact Hp|]. split; [exact Hs|]. split; [intros k Hk; unfold bad_r; specialize (H3 k (proj2 (round_robin_in _ _ _ C3) Hk)); tauto|].
  destruct (nltb (x 0%nat) nzero); [congruence|]. apply bind_ok in E as (g & _ & E). destruct fm; congruence.
Qed.
Print Assumptions C44_round_robin.
Example C44_ex : (0 < lp_n lpR)%nat /\ (0 < lp_Ns lpR)%nat /\ counters_ok lpR lp_init /\
  filter_ok lpR 1 (vec2 0 (6 / 10) (2 / 10)) /\ ~ filter_ok lpR 1 (vec2 0 2 0).
Proof.
  split; [cbn; lia|]. split; [cbn; lia|]. split; [unfold counters_ok; cbn; lia|].
  rewrite !lpR_ok. cbn. split; lra.
Qed.

(** ** C45 *)
Theorem C45_lowpass_cut_valid :
  forall (P : lowpass R) s x Spsq s' c t1, (0 < lp_n P)%nat -> counters_ok P s ->
  lowpass_call P s x Spsq = Ok (s', (c, t1)) ->
  (forall z, filter_ok P (best Spsq t1) z -> sat_cut (lp_n P) x c z) /\
  (t1 = None -> ~ sat_cut (lp_n P) x c x).
Proof.
  intros P s x Spsq s' c t1 Hn Hc H. pose proof (lowpass_call_spec P s x Spsq Hn Hc) as Hs. rewrite H in Hs.
  destruct c as [g b]. destruct Hs as (_ & Hb & _ & H3 & H4). split; [exact H4|]. intros ->. destruct H3 as [_ H3].
  assert (E : dot (lp_n P) g (fun i => x i - x i) = 0).
  { apply rsum_0. intros; ring. }
  unfold sat_cut. cbn [fst snd]. rewrite E. destruct b as [b|[|b0 [|b1 [|? ?]]]]; cbn in *; try contradiction; lra.
Qed.
Print Assumptions C45_lowpass_cut_valid.
Example C45_ex : exists s' g b0 b1, counters_ok lpR lp_init /\
  lowpass_call lpR lp_init (vec2 0 2 0) 1 = Ok (s', ((g, BArr [b0; b1]), None)) /\ 0 < b0 <= b1 /\
  sat_cut 2 (vec2 0 2 0) (g, BArr [b0; b1]) (vec2 0 (6 / 10) (2 / 10)).
Proof.
  do 4 eexists. split; [unfold counters_ok; cbn; lia|]. split.
  - unfold lowpass_call, round_robin; cbn. unfold row; cbn.
    match goal with |- context [Rltb ?a ?b] => assert (E : Rltb a b = true) by (apply Rltb_true; lra); rewrite E end.
    cbn. reflexivity.
  - split; [lra|]. unfold sat_cut, dot; cbn. lra.
Qed.

(** ** C74: low-pass filter design end to end *)
Lemma lowpass_optimizes P : (0 < lp_n P)%nat ->
  optimizes (lowpass_call P) (counters_ok P) (sat_cut (lp_n P)) (filter_ok P).
Proof.
  intros Hn s x t s' c t1 Hs H. pose proof (lowpass_call_spec P s x t Hn Hs) as Hsp. rewrite H in Hsp. destruct c as [g b].
  destruct Hsp as (H1 & _ & _ & H3 & H4). split; [exact H1|]. split; [exact H4|]. intros z Hz. destruct t1 as [m|]; [|exact Hz].
  destruct H3 as [[(_ & H3 & _) _] [(k & Hk & ->) _]]. specialize (H3 k Hk). destruct Hz as [(Z1 & Z2 & Z3) Z4].
  split; [|exact Z4]. split; [exact Z1|]. split; [|exact Z3]. intros j Hj. specialize (Z2 j Hj). cbn in Z2. lra.
Qed.
Theorem C74_lowpass_end_to_end :
  forall P tneq max_it tol s w e t tr s' w' e' xb t' info,
  (0 < lp_n P)%nat -> counters_ok P s -> ell_wf e -> e_n e = lp_n P ->
  cutting_plane_dc ell_space Rltb tneq (lowpass_call P) max_it tol s (w, e) t
    = Ok (tr, s', (w', e'), (xb, t', info)) ->
  (cstatus info = nosoln -> forall z, mem_ell (w, e) z -> ~ filter_ok P t' z) /\
  (cstatus info <> nosoln -> forall z, mem_ell (w, e) z -> filter_ok P t' z -> mem_ell (w', e') z) /\
  t' <= t /\
  (xb = None -> t' = t) /\
  (xb <> None -> exists x, filter_ok P t' x /\ is_stop_max P x t').
Proof.
  intros P tneq max_it tol s w e t tr s' w' e' xb t' info Hn Hs He En H.
  pose proof (lowpass_optimizes P Hn) as Hopt. rewrite <- En in Hopt.
  destruct (C06_dc_ell_never_loses_better _ _ tneq _ (counters_ok P) _ max_it tol s w e t tr s' w' e' xb t' info Hopt He Hs H) as [H1 H2].
  split; [exact H1|]. split; [exact H2|].
  destruct (C04_dc_last_improvement _ _ _ _ _ _ _ _ _ _ _ _ _ _ _ _ _ _ _ _ _ _ H) as (Hr & Hb & _).
  assert (HI : forall o x t o' c t1, counters_ok P o -> lowpass_call P o x t = Ok (o', (c, t1)) -> counters_ok P o').
  { intros o x t0 o1 c t1 Ho1 Hx. apply (Hopt o x t0 o1 c t1 Ho1 Hx). }
  assert (Hrep : forall o x t o' c t1, counters_ok P o -> lowpass_call P o x t = Ok (o', (c, Some t1)) ->
    t1 <= t /\ filter_ok P t1 x /\ is_stop_max P x t1).
  { intros o x t0 o1 [g b] t1 Ho1 Hx. pose proof (lowpass_call_spec P o x t0 Hn Ho1) as Hsp. rewrite Hx in Hsp.
    destruct Hsp as (_ & _ & _ & [[[(F1 & F2 & F3) F4] Hm] _]).
    pose proof Hm as [(k & Hk & Em) Hmax]. split; [rewrite Em; apply F2, Hk|]. split; [|exact Hm].
    split; [|exact F4]. split; [exact F1|]. split; [|exact F3]. intros j Hj. specialize (F2 j Hj). specialize (Hmax j Hj). lra. }
  split.
  { refine (dc_replay_mono_inv ell_space _ (counters_ok P) Rle Rle_refl Rle_trans HI _ s (w, e) t tr s' (w', e') t' Hs Hr).
    intros o x t0 o1 c t1 Ho1 Hx. apply (Hrep _ _ _ _ _ _ Ho1 Hx). }
  destruct Hb as [(_ & -> & ->)|(tr1 & ev & tr2 & -> & _ & Hev & Hxb)].
  - split; [reflexivity|congruence].
  - split; [congruence|]. intros _.
    destruct (dc_replay_in ell_space _ (counters_ok P) HI _ _ _ _ _ _ _ Hs Hr ev) as (o1 & o2 & Ho1 & Hx);
      [apply in_or_app; right; left; reflexivity|].
    rewrite Hev in Hx. destruct (Hrep _ _ _ _ _ _ Ho1 Hx) as (_ & E2 & E3). eauto.
Qed.
Print Assumptions C74_lowpass_end_to_end.
(** evaluation of a run of one iteration, for the examples *)
Lemma dc_one_step {O T} (om : O -> (nat -> R) -> T -> res (O * (cut R * option T))) tneq tol o w e t o1 g b t1 :
  ell_proper e -> nonzero (e_n e) g -> om o (w (e_xc e)) t = Ok (o1, ((g, b), t1)) ->
  match b with BScalar b => 0 <= b | BArr [b0; b1] => 0 <= b0 /\ 0 < b1 | _ => False end ->
  exists tr o' st' info, cutting_plane_dc ell_space Rltb tneq om 1 tol o (w, e) t
    = Ok (tr, o', st', (match t1 with Some _ => Some (e_xc e) | None => None end, best t t1, info)).
Proof.
  intros He Hg E Hb. unfold cutting_plane_dc, dc_loop, centre. change (sp_deref ell_space (w, e) (sp_xc ell_space (w, e))) with (w (e_xc e)). rewrite E. cbn [bind].
  change (sp_update ell_space) with (ell_update (A := R)).
  destruct (C24_update_defined_partial w e g b He Hg) as [Hiff Hx]; [destruct b as [|[|? ?]]; [discriminate|contradiction|discriminate]|].
  destruct (ell_update (w, e) (g, b)) as [[st1 [st tsq]]|x] eqn:Eu.
  - cbn [bind]. destruct (negb (status_eqb st success)); [do 4 eexists; reflexivity|].
    destruct (Rltb tsq tol); do 4 eexists; reflexivity.
  - exfalso. pose proof Eu as Eu2. rewrite (Hx x Eu) in Eu2. destruct He as ((Hn & _) & _).
    assert (HN : 2 <= IZR (Z.of_nat (e_n e))) by (apply IZR_le; lia).
    set (tsq := e_kappa e * bf (e_n e) (e_Q e) g g) in *. pose proof (sqrt_pos tsq) as Hsq.
    destruct b as [b|[|b0 [|b1 [|? ?]]]]; try contradiction.
    + destruct (proj1 Hiff Eu2) as [H1 H2]. nra.
    + destruct (proj1 Hiff Eu2) as [[_ [H1 H2]]|(_ & H2 & _)]; [nra|lra].
Qed.
Ltac rdec := repeat match goal with |- context [Rltb ?a ?b] =>
  first [ replace (Rltb a b) with true by (symmetry; apply Rltb_true; lra)
        | replace (Rltb a b) with false by (symmetry; apply Rltb_false; lra) ]; cbn end.
Example C74_ex : exists tr s' st' info, ell_wf ball2 /\ e_n ball2 = lp_n lpR /\ counters_ok lpR lp_init /\
  cutting_plane_dc ell_space Rltb (fun a b => negb (Req_bool a b)) (lowpass_call lpR) 1 2 lp_init
    (fun _ => vec2 0 (6 / 10) (2 / 10), ball2) 1
  = Ok (tr, s', st', (Some 0%nat, 0 + 1 * (6 / 10) + -2 * (2 / 10), info)).
Proof.
  set (v := 0 + 1 * (6 / 10) + -2 * (2 / 10)).
  destruct (dc_one_step (lowpass_call lpR) (fun a b => negb (Req_bool a b)) 2 lp_init (fun _ => vec2 0 (6 / 10) (2 / 10)) ball2 1
    {| lp_more := false; lp_iAnr := 0; lp_iAs := 0; lp_iAp := 0 |} (vec2 0 1 (-2)) (BArr [0; v]) (Some v))
    as (tr & s' & st' & info & H).
  - apply ball2_proper.
  - exists 0%nat. split; [cbn; lia|cbn; lra].
  - unfold lowpass_call, round_robin; cbn. unfold row; cbn. rdec. rewrite (proj2 (Reqb_true _ _) eq_refl). cbn. rdec. reflexivity.
  - unfold v. lra.
  - exists tr, s', st', info. split; [apply ball2_proper|]. split; [reflexivity|]. split; [unfold counters_ok; cbn; lia|]. exact H.
Qed.

(** ** C46 *)
(** The cut of csdlowpass_oracle, taken at the query point r, is the cut of the rounded point
    translated by twice the rounding error in the wrong direction ... *)
Theorem C46_csd_cut_translated_partial :
  forall (P : lowpass R) rounding s rcsd r Spsq retry s' rcsd' g b x0 t1 more,
  csd_call P rounding (s, rcsd) r Spsq retry = Ok ((s', rcsd'), ((g, b), x0, t1, more)) ->
  (rcsd' = rcsd /\ retry = false /\ x0 = r /\ t1 = None /\ more = true /\
   exists b', lowpass_call P s r Spsq = Ok (s', ((g, b'), None)) /\ b = b') \/
  (exists rc s1 b', rcsd' = Some rc /\ x0 = rc /\ lowpass_call P s1 rc Spsq = Ok (s', ((g, b'), t1)) /\
     more = andb (lp_more s') (negb retry) /\
     (forall z, sat_cut (lp_n P) r (g, b) z <-> sat_cut (lp_n P) rc (g, b') (fun i => z i + 2 * (rc i - r i))) /\
     (dot (lp_n P) g (fun i => rc i - r i) = 0 ->
        forall z, sat_cut (lp_n P) r (g, b) z <-> sat_cut (lp_n P) rc (g, b') z)).
Proof.
  intros P rounding s rcsd r Spsq retry s' rcsd' g b x0 t1 more H. unfold csd_call in H.
  assert (Hsec : forall s1 rc0, csd_second P s1 rc0 r Spsq retry = Ok ((s', rcsd'), ((g, b), x0, t1, more)) ->
    exists rc b', rcsd' = Some rc /\ x0 = rc /\ lowpass_call P s1 rc Spsq = Ok (s', ((g, b'), t1)) /\
     more = andb (lp_more s') (negb retry) /\
     (forall z, sat_cut (lp_n P) r (g, b) z <-> sat_cut (lp_n P) rc (g, b') (fun i => z i + 2 * (rc i - r i))) /\
     (dot (lp_n P) g (fun i => rc i - r i) = 0 ->
        forall z, sat_cut (lp_n P) r (g, b) z <-> sat_cut (lp_n P) rc (g, b') z)).
  { intros s1 [rc|] H'; [|discriminate]. unfold csd_second in H'. apply bind_ok in H' as ([s2 [[g' b'] t2]] & Hl & H').
    injection H' as <- <- <- <- <- <- <-. exists rc, b'. split; [reflexivity|]. split; [reflexivity|]. split; [exact Hl|].
    split; [reflexivity|]. split.
    - intros z. apply beta_add_sat.
    - intros E z. change (ndot (lp_n P) g' (fun i => nsub (rc i) (r i))) with (dot (lp_n P) g' (fun i => rc i - r i)).
      etransitivity; [apply beta_add_sat|]. unfold sat_cut. cbn [fst snd].
      replace (dot (lp_n P) g' (fun i => z i + 2 * (rc i - r i) - rc i)) with (dot (lp_n P) g' (fun i => z i - rc i)); [reflexivity|].
      transitivity (dot (lp_n P) g' (fun i => z i - rc i) + 2 * dot (lp_n P) g' (fun i => rc i - r i)); [lra|].
      unfold dot. rewrite <- rsum_scal_l, <- rsum_plus. apply rsum_ext. intros; ring. }
  destruct retry.
  - right. destruct (Hsec _ _ H) as (rc & b' & Hrest). exists rc, s, b'. exact Hrest.
  - apply bind_ok in H as ([s1 [[g1 b1] t2]] & Hl & H). destruct t2 as [m|].
    + apply bind_ok in H as (rc0 & Hr & H). right. destruct (Hsec _ _ H) as (rc & b' & Hrest). exists rc, s1, b'. exact Hrest.
    + injection H as <- <- <- <- <- <- <-. left. repeat split. exists b1. split; [exact Hl|reflexivity].
Qed.
Print Assumptions C46_csd_cut_translated_partial.

(** ... so a feasible filter can be cut off, the query point itself included. *)
Definition lpW : lowpass R :=
  {| lp_n := 2; lp_Np := 0; lp_Ap := fun _ _ => 0; lp_Ns := 1; lp_As := fun _ => vec2 0 1 0;
     lp_Nr := 0; lp_Anr := fun _ _ => 0; lp_Lpsq := 0; lp_Upsq := 0 |}.
Theorem C46_csd_recentred_cut_refuted :
  ~ (forall (P : lowpass R) rounding s rcsd r Spsq retry o' c x0 t1 more,
       counters_ok P s ->
       csd_call P rounding (s, rcsd) r Spsq retry = Ok (o', (c, x0, t1, more)) ->
       forall z, filter_ok P (best Spsq t1) z -> sat_cut (lp_n P) r c z).
Proof.
  intros Hall.
  assert (Hok : filter_ok lpW 2 (vec2 0 1 0)).
  { unfold filter_ok, spectrum_ok, lpW, dot; cbn. repeat split; intros; lra || lia. }
  assert (Hrun : exists o', csd_call lpW (fun _ => Ok (vec2 0 3 0)) (lp_init, None) (vec2 0 1 0) 2 false
    = Ok (o', ((vec2 0 1 0, BArr [0 + 1 * 3 + 0 * 0 - 2 + (0 + 1 * (3 - 1) + 0 * (0 - 0));
                                  0 + 1 * 3 + 0 * 0 + (0 + 1 * (3 - 1) + 0 * (0 - 0))]), vec2 0 3 0, None, true))).
  { unfold csd_call. pose proof (C44_lowpass_reports_iff_feasible lpW lp_init (vec2 0 1 0) 2 ltac:(cbn; lia) ltac:(cbn; lia)
      ltac:(unfold counters_ok; cbn; lia)) as (s' & c & t1 & E & Hc & Hf & _).
    destruct t1 as [m|]; [|exfalso; apply (proj2 Hf Hok); reflexivity]. rewrite E. cbn [bind]. unfold csd_second.
    assert (E2 : exists s2, lowpass_call lpW s' (vec2 0 3 0) 2 = Ok (s2,
      ((vec2 0 1 0, BArr [0 + 1 * 3 + 0 * 0 - 2; 0 + 1 * 3 + 0 * 0]), None)) /\ lp_more s2 = true).
    { unfold lowpass_call. destruct Hc as (C1 & C2 & C3). cbn in C1, C2, C3.
      assert (E0 : round_robin (lp_iAp s') 0 = []) by (unfold round_robin; replace (lp_iAp s') with 0%nat by lia; reflexivity).
      assert (E1 : round_robin (lp_iAs s') 1 = [0%nat]).
      { unfold round_robin. destruct (lp_iAs s') as [|[|]]; [reflexivity|reflexivity|lia]. }
      cbn [lp_Np lpW]. rewrite E0. cbn [pass_loop bind]. cbn [lp_Ns lpW]. fold lpW. rewrite E1.
      cbn [stop_loop row lp_Ns lpW Nat.ltb Nat.leb bind lp_As lp_n].
      match goal with |- context [nltb 2 ?v] => assert (B : nltb 2 v = true) by (apply Rltb_true; cbn; lra); rewrite B end.
      eexists. split; reflexivity. }
    destruct E2 as (s2 & E2 & Em). rewrite E2. cbn [bind]. rewrite Em. eexists. reflexivity. }
  destruct Hrun as (o' & Hrun).
  specialize (Hall lpW _ lp_init None _ 2 false _ _ _ _ _ ltac:(unfold counters_ok; cbn; lia) Hrun (vec2 0 1 0) Hok).
  unfold sat_cut, dot in Hall. cbn in Hall. lra.
Qed.
Print Assumptions C46_csd_recentred_cut_refuted.

(** ** C47 *)
(** The error of a missing rounded point is TypeError (len(None)); no run from a fresh oracle raises it. *)
Theorem C47_rounded_point_present :
  forall (P : lowpass R) rounding tneq max_it tol s w e t,
  (0 < lp_n P)%nat -> counters_ok P s -> ell_wf e -> (forall r, rounding r <> Raise TypeError) ->
  cutting_plane_q ell_space Rltb tneq (csd_call P rounding) max_it tol (s, None) (w, e) t <> Raise TypeError.
Proof.
  intros P rounding tneq max_it tol s w e t Hn Hs He Hround.
  assert (Hcall : forall s rcsd r t retry, counters_ok P s -> (retry = true -> rcsd <> None) ->
    no_te (csd_call P rounding (s, rcsd) r t retry) /\
    forall s' rcsd' g b x0 t1 more, csd_call P rounding (s, rcsd) r t retry = Ok ((s', rcsd'), ((g, b), x0, t1, more)) ->
      counters_ok P s' /\ (rcsd' = None -> beta_ok b /\ 0 < beta0 b)).
  { clear s Hs t. intros s rcsd r t retry Hs Hret.
    assert (Hsec : forall s1 rc0, counters_ok P s1 -> rc0 <> None ->
      no_te (csd_second P s1 rc0 r t retry) /\
      forall s' rcsd' g b x0 t1 more, csd_second P s1 rc0 r t retry = Ok ((s', rcsd'), ((g, b), x0, t1, more)) ->
      counters_ok P s' /\ (rcsd' = None -> beta_ok b /\ 0 < beta0 b)).
    { intros s1 [rc|] Hs1 Hrc; [|congruence]. unfold csd_second.
      pose proof (lowpass_call_spec P s1 rc t Hn Hs1) as Hl.
      destruct (lowpass_call P s1 rc t) as [[s2 [[g2 b2] t2]]|ex].
      - cbn [bind]. split; [apply no_te_ok|]. intros s' rcsd' g b x0 t1 more E. injection E as <- <- _ _ _ _ _.
        split; [apply Hl|discriminate].
      - destruct Hl as [-> _]. split; [discriminate|]. discriminate. }
    unfold csd_call. destruct retry; [apply Hsec; auto|].
    pose proof (lowpass_call_spec P s r t Hn Hs) as Hl.
    destruct (lowpass_call P s r t) as [[s2 [[g2 b2] t2]]|ex].
    - cbn [bind]. destruct t2 as [m|].
      + destruct (rounding r) as [rc|ex] eqn:Er.
        * cbn [bind]. apply Hsec; [apply Hl|discriminate].
        * cbn [bind]. split; [intros [= ->]; exact (Hround r Er)|discriminate].
      + split; [apply no_te_ok|]. intros s' rcsd' g b x0 t1 more E. injection E as <- <- <- <- _ _ _.
        destruct Hl as (H1 & H2 & _ & [_ H3] & _). auto.
    - destruct Hl as [-> _]. split; [discriminate|]. discriminate. }
  assert (Hloop : forall k niter t0 o st t xb stat, counters_ok P (fst o) -> ell_wf (snd st) -> (stat = noeffect -> snd o <> None) ->
    no_te (q_loop ell_space Rltb tneq (csd_call P rounding) k niter tol t0 o st t xb stat)).
  { clear s w e t Hs He. induction k as [|k IH]; intros niter t0 [s rcsd] [w e] t xb stat Hs He Hst; [apply no_te_ok|]. cbn [q_loop].
    cbn [fst snd] in Hs, He, Hst.
    destruct (Hcall s rcsd (centre ell_space (w, e)) t (status_eqb stat noeffect) Hs) as [Hte Hprop].
    { destruct stat; cbn; try discriminate. intros _. apply Hst. reflexivity. }
    apply no_te_bind; [exact Hte|]. intros [[s1 rc1] [[[[g b] x0] t1] more]] Ho. destruct (Hprop _ _ _ _ _ _ _ Ho) as [Hs1 Hb1].
    apply no_te_bind; [apply ell_update_no_te|]. intros [[w1 e1] [stat1 tsq]] Hu.
    assert (He1 : ell_wf e1) by (exact (ell_update_wf (w, e) (g, b) (w1, e1) (stat1, tsq) He Hu)).
    destruct (andb _ _); [apply no_te_ok|]. destruct (status_eqb stat1 nosoln); [apply no_te_ok|].
    destruct (Rltb tsq tol); [apply no_te_ok|].
    apply no_te_bind; [|intros [[[tr o2] st2] r] _; apply no_te_ok]. apply IH; [exact Hs1|exact He1|].
    intros -> Hnone. cbn in Hnone. destruct (Hb1 Hnone) as [B1 B2]. exact (ell_update_pos w e g b _ _ He B1 B2 Hu). }
  unfold cutting_plane_q. destruct max_it as [|k]; [discriminate|]. apply Hloop; [exact Hs|exact He|discriminate].
Qed.
Print Assumptions C47_rounded_point_present.
(** The error does occur when a fresh oracle is called with retry = True. *)
Example C47_ex :
  csd_call lpR (fun r => Ok r) (lp_init, None) (vec2 0 1 0) 1 true = Raise TypeError /\
  counters_ok lpR lp_init /\ ell_wf ball2 /\ e_n ball2 = lp_n lpR.
Proof.
  split; [reflexivity|]. split; [unfold counters_ok; cbn; lia|]. split; [apply ball2_proper|reflexivity].
Qed.
