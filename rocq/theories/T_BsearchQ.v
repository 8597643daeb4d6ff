(** bsearch on Fractions (C175): the search takes the same steps as on the reals of the same value. *)
From Coq Require Import Reals QArith Qreals Lra Lqa.
From Verif Require Import Base M_Drivers S_Drivers P_Drivers T_Drivers.
Local Open Scope R_scope.

Lemma Qltb_R a b : Qltb a b = Rltb (Q2R a) (Q2R b).
Proof.
  unfold Qltb, Rltb. destruct (Qle_bool b a) eqn:E; cbn [negb].
  - apply Qle_bool_iff, Qle_Rle in E. destruct (Rlt_dec _ _); [Lra.lra|reflexivity].
  - destruct (Rlt_dec (Q2R a) (Q2R b)) as [H|H]; [reflexivity|]. exfalso.
    assert (Qle b a) by (apply Rle_Qle; Lra.lra). apply Qle_bool_iff in H0. congruence.
Qed.
Lemma Qneq_R a b : negb (Qeq_bool a b) = negb (Req_bool (Q2R a) (Q2R b)).
Proof.
  f_equal. unfold Req_bool. destruct (Qeq_bool a b) eqn:E.
  - apply Qeq_bool_iff, Qeq_eqR in E. destruct (Req_EM_T _ _); [reflexivity|contradiction].
  - destruct (Req_EM_T (Q2R a) (Q2R b)) as [H|H]; [|reflexivity]. apply eqR_Qeq, Qeq_bool_iff in H. congruence.
Qed.
Lemma tau_R u l : Q2R ((u - l) / 2)%Q = (Q2R u - Q2R l) / 2.
Proof.
  unfold Qdiv. rewrite Q2R_mult, Q2R_minus, Q2R_inv by discriminate. replace (Q2R 2) with 2 by (unfold Q2R; cbn; Lra.lra). reflexivity.
Qed.

Definition bsq_map {O} (r : res (list (Q * bool) * O * (Q * CInfo))) : res (list (R * bool) * O * (R * CInfo)) :=
  ' (tr, o, (u, info)) <- r ;; Ok (map (fun p => (Q2R (fst p), snd p)) tr, o, (Q2R u, info)).

(** For an oracle on the reals that answers at the value of a Fraction as the oracle on Fractions does. *)
Theorem C175_bsearch_fractions {O} (omega : O -> Q -> res (O * bool)) (omegaR : O -> R -> res (O * bool)) max_it tol o lower upper :
  (forall o t, omegaR o (Q2R t) = omega o t) ->
  bsearch_R omegaR max_it (Q2R tol) o (Q2R lower, Q2R upper) = bsq_map (bsearch_Q omega max_it tol o (lower, upper)).
Proof.
  intros Ho. unfold bsearch_R, bsearch_Q, bsearch. destruct max_it as [|k]; [reflexivity|]. generalize (S k) as n. generalize 0%nat as i. clear k.
  assert (HL : forall n i u0 o lower upper,
    bs_loop (fun u l => (u - l) / 2) Rplus Rltb (fun a b => negb (Req_bool a b)) omegaR n i (Q2R tol) (Q2R u0) o (Q2R lower) (Q2R upper)
    = bsq_map (bs_loop (fun u l => ((u - l) / 2)%Q) Qplus Qltb (fun a b => negb (Qeq_bool a b)) omega n i tol u0 o lower upper)).
  { clear lower upper o. induction n as [|n IH]; intros i u0 o lower upper; cbn [bs_loop]; cbv zeta.
    - cbn [bsq_map bind map]. rewrite Qneq_R. reflexivity.
    - rewrite <- tau_R, <- Qltb_R. destruct (Qltb _ tol).
      + cbn [bsq_map bind map]. rewrite Qneq_R. reflexivity.
      + rewrite <- Q2R_plus, Ho. destruct (omega o (lower + (upper - lower) / 2)%Q) as [[o1 b]|e]; [|reflexivity]. cbn [bind].
        replace (if b then Q2R lower else Q2R (lower + (upper - lower) / 2)) with (Q2R (if b then lower else (lower + (upper - lower) / 2)%Q)) by (destruct b; reflexivity).
        replace (if b then Q2R (lower + (upper - lower) / 2) else Q2R upper) with (Q2R (if b then (lower + (upper - lower) / 2)%Q else upper)) by (destruct b; reflexivity).
        rewrite IH. match goal with |- bind (bsq_map ?r) _ = _ => destruct r as [[[tr o2] [v info]]|e]; reflexivity end. }
  intros i n. apply HL.
Qed.
Print Assumptions C175_bsearch_fractions.

(** The bracket of C12 on Fractions. *)
Theorem C175_fractions_bracket {O} (omega : O -> Q -> res (O * bool)) (P : Q -> Prop) max_it tol o lower upper tr o' u info :
  decides omega P -> (forall a b, (a <= b)%Q -> P a -> P b) -> ~ P lower -> P upper ->
  bsearch_Q omega max_it tol o (lower, upper) = Ok (tr, o', (u, info)) ->
  P u /\ (u <= upper)%Q /\
  (exists l, (lower <= l)%Q /\ ~ P l /\ ((u - l) * inject_Z (2 ^ Z.of_nat (length tr)) == upper - lower)%Q /\
     (cstatus info = smallenough -> ((u - l) / 2 < tol)%Q)) /\
  (feasible info = true <-> ~ (u == upper)%Q) /\
  (cstatus info = smallenough \/ cstatus info = success /\ length tr = max_it).
Proof.
  intros Hd Hm Hl Hu H. unfold bsearch_Q, bsearch in H. destruct max_it as [|k]; [discriminate|]. revert H. generalize (S k) as n. generalize 0%nat as i. clear k.
  assert (HL : forall n i u0 o lower upper tr o' u info, ~ P lower -> P upper ->
    bs_loop (fun u l => ((u - l) / 2)%Q) Qplus Qltb (fun a b => negb (Qeq_bool a b)) omega n i tol u0 o lower upper = Ok (tr, o', (u, info)) ->
    P u /\ (u <= upper)%Q /\
    (exists l, (lower <= l)%Q /\ ~ P l /\ ((u - l) * inject_Z (2 ^ Z.of_nat (length tr)) == upper - lower)%Q /\
       (cstatus info = smallenough -> ((u - l) / 2 < tol)%Q)) /\
    (feasible info = true <-> ~ (u == u0)%Q) /\
    (cstatus info = smallenough \/ cstatus info = success /\ length tr = n)).
  { clear lower upper o tr o' u info Hl Hu. assert (Hq : forall u u0 : Q, negb (Qeq_bool u u0) = true <-> ~ (u == u0)%Q).
    { intros u u0. rewrite <- Qeq_bool_iff. destruct (Qeq_bool u u0); cbn; split; congruence. }
    induction n as [|n IH]; intros i u0 o lower upper tr o' u info Hl Hu; cbn [bs_loop]; cbv zeta.
    - intros H. injection H as <- <- <- <-. cbn [cstatus feasible length]. split; [exact Hu|]. split; [apply Qle_refl|]. split; [|split; [apply Hq|auto]].
      exists lower. split; [apply Qle_refl|]. split; [exact Hl|]. split; [cbn; ring|discriminate].
    - destruct (Qltb ((upper - lower) / 2) tol) eqn:Et.
      + intros H. injection H as <- <- <- <-. cbn [cstatus feasible length]. split; [exact Hu|]. split; [apply Qle_refl|]. split; [|split; [apply Hq|auto]].
        exists lower. split; [apply Qle_refl|]. split; [exact Hl|]. split; [cbn; ring|]. intros _.
        unfold Qltb in Et. apply Qnot_le_lt. intros E. apply Qle_bool_iff in E. rewrite E in Et. discriminate.
      + intros H. apply bind_ok in H as ([o1 b] & E & H). apply bind_ok in H as ([[tr1 o2] [v info1]] & E1 & H). injection H as <- <- <- <-.
        assert (Hlu : (lower < upper)%Q) by (apply Qnot_le_lt; intros E0; apply Hl; exact (Hm _ _ E0 Hu)).
        assert (Ep : (inject_Z (2 ^ Z.of_nat (S (length tr1))) == 2 * inject_Z (2 ^ Z.of_nat (length tr1)))%Q).
        { rewrite Nat2Z.inj_succ, Z.pow_succ_r, inject_Z_mult by apply Nat2Z.is_nonneg. reflexivity. }
        assert (Emid : (lower + (upper - lower) / 2 == (lower + upper) * (1 # 2))%Q) by field.
        set (p := inject_Z (2 ^ Z.of_nat (length tr1))) in *.
        apply (Hd _ _ _ _) in E. destruct b.
        * apply IH in E1 as (A1 & A2 & (l & L1 & L2 & L3 & L4) & A4 & A5); [|exact Hl|apply E; reflexivity].
          fold p in L3. split; [exact A1|]. split; [rewrite Emid in A2; lra|]. split.
          { exists l. split; [exact L1|]. split; [exact L2|]. split; [|exact L4]. cbn [length]. rewrite Ep.
            transitivity (2 * ((v - l) * p))%Q; [ring|]. rewrite L3. field. }
          split; [exact A4|]. cbn [length]. destruct A5 as [A5|[A5 A6]]; auto.
        * apply IH in E1 as (A1 & A2 & (l & L1 & L2 & L3 & L4) & A4 & A5); [|intros Q; apply E in Q; discriminate|exact Hu].
          fold p in L3. split; [exact A1|]. split; [exact A2|]. split.
          { exists l. split; [rewrite Emid in L1; lra|]. split; [exact L2|]. split; [|exact L4]. cbn [length]. rewrite Ep.
            transitivity (2 * ((v - l) * p))%Q; [ring|]. rewrite L3. field. }
          split; [exact A4|]. cbn [length]. destruct A5 as [A5|[A5 A6]]; auto. }
  intros i n. apply HL; assumption.
Qed.
Print Assumptions C175_fractions_bracket.

(** Non-vacuity: the threshold 1/3 on [0, 1], the search that C12_run performs. *)
Example C175_ex :
  decides (fun (o : unit) x => Ok (tt, Qle_bool (1 # 3) x)) (fun x => (1 # 3 <= x)%Q) /\
  (forall o t, (fun (o : unit) x => Ok (tt, Rleb (Q2R (1 # 3)) x)) o (Q2R t) = (fun (o : unit) x => @Ok (unit * bool) (tt, Qle_bool (1 # 3) x)) o t).
Proof.
  split.
  - intros o t o' b H. injection H as <- <-. apply Qle_bool_iff.
  - intros o t. cbv beta. do 2 f_equal. unfold Rleb. destruct (Qle_bool (1 # 3) t) eqn:E.
    + apply Qle_bool_iff, Qle_Rle in E. destruct (Rle_dec _ _); [reflexivity|contradiction].
    + destruct (Rle_dec (Q2R (1 # 3)) (Q2R t)) as [H|H]; [|reflexivity]. apply Rle_Qle, Qle_bool_iff in H. congruence.
Qed.
