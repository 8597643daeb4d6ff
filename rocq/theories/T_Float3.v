(** Property theorems about the negative cycle finder in binary64 (C127-C129). *)
From Coq Require Import ZArith Reals Lra Lia Bool List.
From Flocq Require Import Core.Core IEEE754.BinarySingleNaN.
From Verif Require Import Base M_Net S_Net P_Net T_Net M_Float P_Float P_Float2 S_Float2 P_FSum P_NetF T_Float.
Import ListNotations.
Local Open Scope R_scope.

(** ** C127: the search ends within |V| passes; what an answer certifies *)
Theorem C127_finder64_outcome :
  forall g wr w dist, graph_ok g ->
  (forall e, In e (g_edges g) -> wr e = Ok (w e) /\ is_finite (w e) = true) ->
  (forall v, is_nan (dist v) = false) ->
  (exists c d', @find_neg_cycle b64 FNum g wr dist = Ok (c, d') /\
     (forall v, is_nan (d' v) = false /\ Bltb (dist v) (d' v) = false) /\
     (c = [] -> forall u v, In (u, v) (g_edges g) -> Bltb (fadd (d' u) (w (u, v))) (d' v) = false) /\
     (c <> [] -> simple_cycle (g_edges g) (rev c) /\
        (forall u v, In (u, v) c -> Bltb (d' v) (fadd (d' u) (w (u, v))) = false) /\
        exists u v, In (u, v) c /\ Bltb (fadd (d' u) (w (u, v))) (d' v) = true)) \/
  @find_neg_cycle b64 FNum g wr dist = Raise AssertionError.
Proof.
  intros g wr w dist Hg Hw Hd. pose proof (find_neg_cycle_spec64 g wr w dist Hg Hw Hd) as H. unfold outcomeA in H.
  destruct (find_neg_cycle g wr dist) as [[c d']|x]; [left|right; rewrite H; reflexivity].
  destruct H as (H1 & H2 & H3 & H4). exists c, d'. split; [reflexivity|]. split; [intros v; split; [apply H1|apply H2]|]. split.
  - intros Hc u v Hin. exact (H3 Hc (u, v) Hin).
  - intros Hc. destruct (H4 Hc) as (S & _ & L & ([u v] & He & Hlt)). split; [exact S|]. split; [intros a b Hab; exact (L (a, b) Hab)|].
    exists u, v. split; [exact He|exact Hlt].
Qed.
Print Assumptions C127_finder64_outcome.

Lemma walk_slack E (w : edge -> R) (d : nat -> R) eps s c t :
  (forall u v, In (u, v) E -> d v <= d u + w (u, v) + eps) -> walk E s c t -> d t - d s <= total w c + INR (length c) * eps.
Proof.
  intros H. induction 1 as [|a b c t He _ IH]; [cbn [total length INR]; lra|].
  cbn [total length]. rewrite S_INR. specialize (H _ _ He). lra.
Qed.
Lemma walk_tight E (w : edge -> R) (d : nat -> R) eps s c t :
  walk E s c t -> (forall u v, In (u, v) c -> d u + w (u, v) <= d v + eps) -> total w c <= d t - d s + INR (length c) * eps.
Proof.
  induction 1 as [|a b c t He _ IH]; intros H; [cbn [total length INR]; lra|].
  cbn [total length]. rewrite S_INR. pose proof (H a b (or_introl eq_refl)) as H1.
  assert (H2 := IH (fun u v Huv => H u v (or_intror Huv))). lra.
Qed.
Lemma add_err B (x y : b64) : is_finite x = true -> is_finite y = true -> Rabs (B2R x) <= B -> Rabs (B2R y) <= B -> B <= pow2 1000 ->
  is_finite (fadd x y) = true /\ Rabs (B2R (fadd x y) - (B2R x + B2R y)) <= pow2 (-52) * B + pow2 (-1075).
Proof.
  intros Fx Fy Bx By HB.
  assert (Hs : Rabs (B2R x + B2R y) <= 2 * B) by (eapply Rle_trans; [apply Rabs_triang|lra]).
  destruct (fadd_rnd x y Fx Fy) as [E F].
  { apply Rle_trans with (2 * pow2 1000); [lra|]. change (2 * pow2 1000) with (pow2 1 * pow2 1000). rewrite <- bpow_plus. apply bpow_le. lia. }
  split; [exact F|]. rewrite E. eapply Rle_trans; [apply rnd_rel|].
  replace (pow2 (-52)) with (2 * pow2 (-53)) by (change 2 with (pow2 1); rewrite <- bpow_plus; reflexivity).
  assert (P := bpow_ge_0 radix2 (-53)). nra.
Qed.

(** in exact arithmetic: no cycle lighter than a few roundings is missed, and no cycle heavier than that is returned *)
Theorem C127_finder64_weights :
  forall g wr w dist c d' B, graph_ok g ->
  (forall e, In e (g_edges g) -> wr e = Ok (w e) /\ is_finite (w e) = true) ->
  (forall v, is_nan (dist v) = false) ->
  @find_neg_cycle b64 FNum g wr dist = Ok (c, d') ->
  (forall v, In v (g_nodes g) -> is_finite (d' v) = true /\ Rabs (B2R (d' v)) <= B) ->
  (forall e, In e (g_edges g) -> Rabs (B2R (w e)) <= B) -> B <= pow2 1000 ->
  (c = [] -> forall c0, cycle (g_edges g) c0 ->
     - (INR (length c0) * (pow2 (-52) * B + pow2 (-1075))) <= total (fun e => B2R (w e)) c0) /\
  (c <> [] -> simple_cycle (g_edges g) (rev c) /\
     total (fun e => B2R (w e)) c <= INR (length c) * (pow2 (-52) * B + pow2 (-1075))).
Proof.
  intros g wr w dist c d' B Hg Hw Hd H Hlab Hwb HB.
  destruct (C127_finder64_outcome g wr w dist Hg Hw Hd) as [(c1 & d1 & E1 & _ & A1 & A2)|E]; [|congruence].
  rewrite H in E1. injection E1 as <- <-. set (eps := pow2 (-52) * B + pow2 (-1075)).
  assert (Hadd : forall u v, In (u, v) (g_edges g) -> is_finite (fadd (d' u) (w (u, v))) = true /\
            Rabs (B2R (fadd (d' u) (w (u, v))) - (B2R (d' u) + B2R (w (u, v)))) <= eps).
  { intros u v He. destruct (Hg u v He) as [Hu _]. destruct (Hlab u Hu). apply add_err; auto. apply Hw, He. }
  split; intros Hc.
  - intros c0 (_ & s & Hs).
    pose proof (walk_slack (g_edges g) (fun e => B2R (w e)) (fun v => B2R (d' v)) eps s c0 s) as K.
    enough (0 <= total (fun e => B2R (w e)) c0 + INR (length c0) * eps) by lra.
    cbv beta in K. rewrite Rminus_diag_eq in K by reflexivity. apply K; [|exact Hs]. clear K.
    intros u v He. destruct (Hadd u v He) as [F A]. apply Rabs_le_inv in A.
    pose proof (A1 Hc u v He) as L. destruct (Hg u v He) as [_ Hv]. destruct (Hlab v Hv) as [Fv _].
    rewrite f64_ltb in L by assumption. destruct (Rlt_bool_spec (B2R (fadd (d' u) (w (u, v)))) (B2R (d' v))); [discriminate|]. lra.
  - destruct (A2 Hc) as (S & L & _). split; [exact S|]. destruct S as ((_ & s & Hs) & _).
    rewrite <- (total_rev _ c), <- (rev_length c).
    pose proof (walk_tight (g_edges g) (fun e => B2R (w e)) (fun v => B2R (d' v)) eps s (rev c) s Hs) as K.
    cbv beta in K. rewrite Rminus_diag_eq, Rplus_0_l in K by reflexivity. apply K. clear K.
    intros u v Huv. pose proof (walk_incl _ _ _ _ Hs _ Huv) as He. apply in_rev in Huv.
    destruct (Hadd u v He) as [F A]. apply Rabs_le_inv in A. pose proof (L u v Huv) as L1.
    destruct (Hg u v He) as [_ Hv]. destruct (Hlab v Hv) as [Fv _].
    rewrite f64_ltb in L1 by assumption. destruct (Rlt_bool_spec (B2R (d' v)) (B2R (fadd (d' u) (w (u, v))))); [discriminate|]. lra.
Qed.
Print Assumptions C127_finder64_weights.

(** ** C128: no AssertionError; C129: a cycle is returned exactly when there is a negative one.
    Both hold in exact arithmetic (C40). *)
Definition g2 : digraph := {| g_nodes := [0; 1]%nat; g_edges := [(0, 1); (1, 0)]%nat |}.
Lemma g2_ok : graph_ok g2.
Proof. intros u v H. cbn in H. repeat destruct H as [H|H]; try (injection H as <- <-; cbn; tauto); contradiction. Qed.
Definition g3 : digraph := {| g_nodes := [0; 1; 2]%nat; g_edges := [(0, 1); (1, 2); (2, 0)]%nat |}.
Lemma g3_ok : graph_ok g3.
Proof. intros u v H. cbn in H. repeat destruct H as [H|H]; try (injection H as <- <-; cbn; tauto); contradiction. Qed.

(** edges 0 -> 1 of weight -1.0 and 1 -> 0 of weight 0.9999999999999999, all labels 0.0 *)
Definition w_assert (e : edge) : b64 := if Nat.eqb (fst e) 0 then fmake (-1) 0 else fmake (2 ^ 53 - 1) (-53).
Theorem C128_no_assertion_refuted :
  exists g w, graph_ok g /\ (forall e, is_finite (w e) = true) /\
  (exists c, cycle (g_edges g) c /\ total (fun e => B2R (w e)) c < 0) /\
  @find_neg_cycle b64 FNum g (fun e => Ok (w e)) (fun _ => fzero) = Raise AssertionError.
Proof.
  exists g2, w_assert. split; [exact g2_ok|]. split; [intros [u v]; unfold w_assert; destruct (Nat.eqb _ 0); reflexivity|]. split.
  - exists [(0, 1); (1, 0)]%nat. split.
    + split; [discriminate|]. exists 0%nat. repeat (constructor; cbn; try tauto).
    + cbn [total w_assert fst Nat.eqb]. rewrite !fmakeR by lia. cbn. lra.
  - vm_compute. reflexivity.
Qed.
Print Assumptions C128_no_assertion_refuted.

(** Weights and labels that are multiples of one power of two and small enough: as in exact arithmetic. *)
Lemma exact_run g wr w dist ex W D : graph_ok g ->
  (-1074 <= ex <= 970)%Z -> (0 <= W)%Z ->
  (D + (Z.of_nat (Nat.max 1 (length (g_nodes g))) * Z.of_nat (length (g_edges g)) + 1) * W <= 2 ^ 53)%Z ->
  (forall e, In e (g_edges g) -> wr e = Ok (w e) /\ multiple64 ex W (w e)) ->
  (forall v, multiple64 ex D (dist v)) ->
  exists c d' dR, @find_neg_cycle b64 FNum g wr dist = Ok (c, d') /\ (forall v, is_finite (d' v) = true) /\
    find_neg_cycle g (fun e => Ok (B2R (w e))) (fun v => B2R (dist v)) = Ok (c, dR) /\ forall v, dR v = B2R (d' v).
Proof.
  intros Hg Hex HW HB Hw Hd.
  destruct (C40_find_neg_cycle g (fun e => Ok (B2R (w e))) (fun e => B2R (w e)) (fun v => B2R (dist v)) Hg) as (c & dR & _ & E & _).
  { intros; reflexivity. }
  pose proof (neg_cycle_sim ex Hex g wr w W Hw HW (fun e => Ok (B2R (w e))) (fun e _ => eq_refl)
                (Nat.max 1 (length (g_nodes g))) D dist (fun v => B2R (dist v)) (fun _ => None) HB) as S.
  fold (@find_neg_cycle b64 FNum g wr dist) in S.
  change (neg_cycle_loop (Nat.max 1 (length (g_nodes g))) g (fun e => Ok (B2R (w e))) (fun v => B2R (dist v)) (fun _ => None))
    with (find_neg_cycle g (fun e => Ok (B2R (w e))) (fun v => B2R (dist v))) in S.
  rewrite E in S. destruct (@find_neg_cycle b64 FNum g wr dist) as [[c' d']|x].
  - destruct S as [-> S]; [intros v; split; [apply Hd|reflexivity]|discriminate|].
    exists c, d', dR. split; [reflexivity|]. split; [intros v; apply S|]. split; [exact E|]. intros v. apply S.
  - contradiction S; [intros v; split; [apply Hd|reflexivity]|discriminate].
Qed.
Theorem C128_no_assertion_partial :
  forall g wr w dist ex W D, graph_ok g ->
  (-1074 <= ex <= 970)%Z -> (0 <= W)%Z ->
  (D + (Z.of_nat (Nat.max 1 (length (g_nodes g))) * Z.of_nat (length (g_edges g)) + 1) * W <= 2 ^ 53)%Z ->
  (forall e, In e (g_edges g) -> wr e = Ok (w e) /\ multiple64 ex W (w e)) ->
  (forall v, multiple64 ex D (dist v)) ->
  exists c d', @find_neg_cycle b64 FNum g wr dist = Ok (c, d').
Proof.
  intros g wr w dist ex W D Hg Hex HW HB Hw Hd.
  destruct (exact_run g wr w dist ex W D Hg Hex HW HB Hw Hd) as (c & d' & _ & E & _). eauto.
Qed.
Print Assumptions C128_no_assertion_partial.

(** a cycle of weight 0.125 is returned; a cycle of weight -0.5 is not seen.  Labels as large as 2^53 *)
Definition w_pos (e : edge) : b64 := if Nat.eqb (fst e) 2 then fmake (-5) (-3) else fmake 3 (-3).
Definition w_neg (e : edge) : b64 := fmake (-1) (-2).
Definition lab53 (v : nat) : b64 := fmake 1 53.
Definition lab60 (v : nat) : b64 := if Nat.eqb v 0 then fmake 1 53 else fmake 1 60.
Theorem C129_exact_answer_refuted :
  (exists g w dist c d', graph_ok g /\ (forall e, is_finite (w e) = true) /\ (forall v, is_finite (dist v) = true) /\
     @find_neg_cycle b64 FNum g (fun e => Ok (w e)) dist = Ok (c, d') /\ c <> [] /\ 0 < total (fun e => B2R (w e)) c /\
     ~ exists c0, cycle (g_edges g) c0 /\ total (fun e => B2R (w e)) c0 < 0) /\
  (exists g w dist d' c0, graph_ok g /\ (forall e, is_finite (w e) = true) /\ (forall v, is_finite (dist v) = true) /\
     @find_neg_cycle b64 FNum g (fun e => Ok (w e)) dist = Ok ([], d') /\
     simple_cycle (g_edges g) c0 /\ total (fun e => B2R (w e)) c0 < 0).
Proof.
  split.
  - exists g3, w_pos, lab60.
    assert (HF : forall e, is_finite (w_pos e) = true) by (intros [u v]; unfold w_pos; destruct (Nat.eqb _ 2); reflexivity).
    assert (HL : forall v, is_finite (lab60 v) = true) by (intros v; unfold lab60; destruct (Nat.eqb _ 0); reflexivity).
    destruct (find_neg_cycle g3 (fun e => Ok (w_pos e)) lab60) as [[c d']|x] eqn:E.
    + assert (Ec : c = [(2, 0); (1, 2); (0, 1)]%nat).
      { assert (X : match find_neg_cycle g3 (fun e => Ok (w_pos e)) lab60 with Ok (c, _) => Some c | Raise _ => None end
                    = Some [(2, 0); (1, 2); (0, 1)]%nat) by (vm_compute; reflexivity).
        rewrite E in X. congruence. }
      exists c, d'. split; [exact g3_ok|]. split; [exact HF|]. split; [exact HL|]. split; [reflexivity|]. subst c. split; [discriminate|].
      split; [cbn [total w_pos fst Nat.eqb]; rewrite !fmakeR by lia; cbn; lra|].
      intros (c0 & Hc & Ht). enough (0 <= total (fun e => B2R (w_pos e)) c0) by lra.
      apply (potential_cycle (g_edges g3) _ (fun v => match v with 0%nat => 0 | 1%nat => 3 / 8 | _ => 3 / 4 end)); [|exact Hc].
      intros i j Hij. cbn in Hij. repeat destruct Hij as [Hij|Hij]; try contradiction; injection Hij as <- <-;
        unfold w_pos; cbn [fst Nat.eqb]; rewrite fmakeR by lia; cbn; lra.
    + exfalso. assert (X : match find_neg_cycle g3 (fun e => Ok (w_pos e)) lab60 with Ok (c, _) => true | Raise _ => false end
                    = true) by (vm_compute; reflexivity). rewrite E in X. discriminate.
  - exists g2, w_neg, lab53.
    destruct (find_neg_cycle g2 (fun e => Ok (w_neg e)) lab53) as [[c d']|x] eqn:E.
    + assert (Ec : c = []).
      { assert (X : match find_neg_cycle g2 (fun e => Ok (w_neg e)) lab53 with Ok (c, _) => Some c | Raise _ => None end
                    = Some []) by (vm_compute; reflexivity).
        rewrite E in X. congruence. }
      subst c. exists d', [(0, 1); (1, 0)]%nat. split; [exact g2_ok|]. split; [reflexivity|]. split; [reflexivity|]. split; [reflexivity|].
      split; [|cbn [total w_neg]; unfold w_neg; rewrite !fmakeR by lia; cbn; lra].
      split; [split; [discriminate|]; exists 0%nat; repeat (constructor; cbn; try tauto)|].
      cbn. repeat constructor; cbn; intuition discriminate.
    + exfalso. assert (X : match find_neg_cycle g2 (fun e => Ok (w_neg e)) lab53 with Ok (c, _) => true | Raise _ => false end
                    = true) by (vm_compute; reflexivity). rewrite E in X. discriminate.
Qed.
Print Assumptions C129_exact_answer_refuted.

Theorem C129_exact_answer_partial :
  forall g wr w dist ex W D c d', graph_ok g ->
  (-1074 <= ex <= 970)%Z -> (0 <= W)%Z ->
  (D + (Z.of_nat (Nat.max 1 (length (g_nodes g))) * Z.of_nat (length (g_edges g)) + 1) * W <= 2 ^ 53)%Z ->
  (forall e, In e (g_edges g) -> wr e = Ok (w e) /\ multiple64 ex W (w e)) ->
  (forall v, multiple64 ex D (dist v)) ->
  @find_neg_cycle b64 FNum g wr dist = Ok (c, d') ->
  (c <> [] <-> exists c', cycle (g_edges g) c' /\ total (fun e => B2R (w e)) c' < 0) /\
  (c <> [] -> simple_cycle (g_edges g) (rev c) /\ total (fun e => B2R (w e)) c < 0) /\
  (c = [] -> forall u v, In (u, v) (g_edges g) -> B2R (d' v) <= B2R (d' u) + B2R (w (u, v))).
Proof.
  intros g wr w dist ex W D c d' Hg Hex HW HB Hw Hd H.
  destruct (exact_run g wr w dist ex W D Hg Hex HW HB Hw Hd) as (c1 & d1 & dR & E & _ & ER & Hs).
  rewrite H in E. injection E as <- <-.
  split; [exact (C40_finds_iff_negative_cycle g (fun e => Ok (B2R (w e))) (fun e => B2R (w e)) _ c dR Hg (fun e _ => eq_refl) ER)|].
  destruct (C40_find_neg_cycle g (fun e => Ok (B2R (w e))) (fun e => B2R (w e)) (fun v => B2R (dist v)) Hg (fun e _ => eq_refl))
    as (c2 & d2 & _ & E2 & P1 & P2 & _).
  rewrite ER in E2. injection E2 as <- <-. split; [exact P2|].
  intros Hc u v Huv. specialize (P1 Hc u v Huv). rewrite !Hs in P1. exact P1.
Qed.
Print Assumptions C129_exact_answer_partial.

(** the graph of C40_ex in binary64: a cycle of weight -1 is found from labels 0.0; hypotheses of C127 and of the
    two partial theorems *)
Definition exw64 (q : Z) (e : edge) : b64 :=
  match e with (0, 1)%nat => fmake 1 0 | (1, 2)%nat => fmake (-4) 0 | (2, 0)%nat => fmake q 0 | _ => fmake 5 0 end.
Definition nc_info (r : res (list edge * (nat -> b64))) : option (list edge) := match r with Ok (c, _) => Some c | Raise _ => None end.
Example C127_ex :
  graph_ok exg /\ (forall e, In e (g_edges exg) -> multiple64 0 5 (exw64 2 e)) /\ multiple64 0 0 fzero /\
  nc_info (@find_neg_cycle b64 FNum exg (fun e => Ok (exw64 2 e)) (fun _ => fzero)) = Some [(2, 0); (1, 2); (0, 1)]%nat /\
  nc_info (@find_neg_cycle b64 FNum exg (fun e => Ok (exw64 3 e)) (fun _ => fzero)) = Some [].
Proof.
  split; [exact exg_ok|]. split; [|split; [|split; vm_compute; reflexivity]].
  - intros e He. cbn in He. repeat destruct He as [<-|He]; try contradiction; (split; [reflexivity|]); cbn [exw64];
      eexists; (split; [apply fmakeR; lia|lia]).
  - split; [reflexivity|]. exists 0%Z. cbn. split; [lra|lia].
Qed.
