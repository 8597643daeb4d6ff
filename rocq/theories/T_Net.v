(** Property theorems for the negative cycle finder and the network oracles *)
From Coq Require Import Reals Lra QArith.
From Verif Require Import Base M_Drivers S_Drivers P_Drivers M_Ell S_LinAlg P_LinAlg S_Ell S_Ell1d M_Net S_Net P_Net P_Ell3 P_Lmi2 T_Drivers T_Ell.
Local Close Scope Q_scope.
Local Open Scope R_scope.

(** the end points of the edges are nodes *)
Definition graph_ok (g : digraph) : Prop :=
  forall u v, In (u, v) (g_edges g) -> In u (g_nodes g) /\ In v (g_nodes g).

(** ** C40 *)
(** Termination within |V| passes ([fuel] counts passes of _relax), no failing assertion, soundness and completeness. *)
Theorem C40_find_neg_cycle :
  forall g wr w dist, graph_ok g -> (forall e, In e (g_edges g) -> wr e = Ok (w e)) ->
  exists c dist',
    (forall fuel, (Nat.max 1 (length (g_nodes g)) <= fuel)%nat ->
       neg_cycle_loop fuel g wr dist (fun _ => None) = Ok (c, dist')) /\
    find_neg_cycle g wr dist = Ok (c, dist') /\
    (c = [] -> forall u v, In (u, v) (g_edges g) -> dist' v <= dist' u + w (u, v)) /\
    (c <> [] -> simple_cycle (g_edges g) (rev c) /\ total w c < 0) /\
    (forall v, dist' v <= dist v).
Proof.
  intros g wr w dist Hg Hw. destruct (find_neg_cycle_spec g Hg wr w Hw dist) as (c & d & H & H1 & H2).
  exists c, d. split; [|split; [exact H|split; [|split; [exact H2|]]]].
  - intros fuel Hf. unfold find_neg_cycle in H.
    pose proof (neg_cycle_loop_more g wr _ _ _ _ H (fuel - Nat.max 1 (length (g_nodes g)))) as Hm.
    replace (Nat.max 1 (length (g_nodes g)) + (fuel - Nat.max 1 (length (g_nodes g))))%nat with fuel in Hm by lia. exact Hm.
  - intros Hc u v He. specialize (H1 Hc u v He). lra.
  - apply (neg_cycle_loop_decreases g wr _ _ _ _ _ H).
Qed.
Print Assumptions C40_find_neg_cycle.
(** A cycle is returned exactly if the graph has a negative cycle. *)
Theorem C40_finds_iff_negative_cycle :
  forall g wr w dist c dist', graph_ok g -> (forall e, In e (g_edges g) -> wr e = Ok (w e)) ->
  find_neg_cycle g wr dist = Ok (c, dist') ->
  (c <> [] <-> exists c', cycle (g_edges g) c' /\ total w c' < 0).
Proof.
  intros g wr w dist c d Hg Hw H. destruct (find_neg_cycle_spec g Hg wr w Hw dist) as (c1 & d1 & H' & H1 & H2).
  rewrite H in H'. injection H' as <- <-. split.
  - intros Hc. destruct (H2 Hc) as [[Hs _] Ht]. exists (rev c). rewrite total_rev. auto.
  - intros (c' & Hc' & Ht) ->. pose proof (potential_cycle _ _ _ _ (H1 eq_refl) Hc'). lra.
Qed.
Print Assumptions C40_finds_iff_negative_cycle.
(** In every arithmetic (floats included) an answer is a simple cycle of the graph. *)
Theorem C40_answer_is_cycle_any_arithmetic :
  forall (A : Type) (HA : Num A) g (wr : edge -> res A) dist c dist', graph_ok g ->
  find_neg_cycle g wr dist = Ok (c, dist') -> c <> [] -> simple_cycle (g_edges g) (rev c).
Proof.
  intros A HA g wr dist c d Hg H Hc. unfold find_neg_cycle in H.
  eapply (neg_cycle_loop_any g Hg wr); [|exact H|exact Hc]. intros v u Hp. discriminate Hp.
Qed.
Print Assumptions C40_answer_is_cycle_any_arithmetic.

Definition exg : digraph := {| g_nodes := [0; 1; 2; 3]%nat; g_edges := [(0, 1); (1, 2); (2, 0); (3, 0); (2, 3)]%nat |}.
Definition exw (q : Q) (e : edge) : res Q :=
  Ok (match e with (0, 1)%nat => 1%Q | (1, 2)%nat => (-4)%Q | (2, 0)%nat => q | _ => 5%Q end).
Lemma exg_ok : graph_ok exg.
Proof. intros u v H. cbn in H. repeat destruct H as [H|H]; try (injection H as <- <-; cbn; tauto); contradiction. Qed.
Example C40_ex : graph_ok exg /\
  (exists d, find_neg_cycle exg (exw 2) (fun _ => 0%Q) = Ok ([(2, 0); (1, 2); (0, 1)]%nat, d)) /\
  (exists d, find_neg_cycle exg (exw 3) (fun _ => 0%Q) = Ok ([], d)).
Proof. split; [exact exg_ok|]. split; eexists; vm_compute; reflexivity. Qed.

(** ** C41 *)
Section C41.
Variable E : list edge.
Variable finder : (nat -> R) -> (edge -> res R) -> res (list (list edge) * (nat -> R)).

(** vectors of dimension n; [ev e] concave with supergradient [gr e] on the edges of the graph *)
Definition concave_n (n : nat) (ev : edge -> (nat -> R) -> R) (gr : edge -> (nat -> R) -> nat -> R) : Prop :=
  forall e x z, In e E -> ev e z <= ev e x + dot n (gr e x) (fun i => z i - x i).

Lemma network_vec_spec n eval grad ev gr u x u' cut :
  finds_negative_cycles E finder ->
  (forall e x, In e E -> eval e x = Ok (ev e x)) -> (forall e x, In e E -> grad e x = Ok (gr e x)) ->
  concave_n n ev gr ->
  network_call finder eval grad (fun _ => nzero) (fun a b i => nadd (a i) (b i)) (fun a i => nopp (a i)) u x
    = Ok (u', cut) ->
  match cut with
  | None => potential E (fun e => ev e x) u'
  | Some (g, f) => 0 < f /\
      forall z v, potential E (fun e => ev e z) v -> dot n g (fun i => z i - x i) + f <= 0
  end.
Proof.
  intros Hfin Hev Hgr Hc H.
  pose proof (network_call_spec E finder Hfin eval grad (fun _ => nzero) (fun a b i => nadd (a i) (b i)) (fun a i => nopp (a i))
    ev gr Hev Hgr (fun g x z => dot n g (fun i => z i - x i))) as Hs.
  specialize (Hs) with (5 := H). destruct cut as [[g f]|].
  - destruct Hs as (H1 & c & _ & _ & _ & H2).
    + intros. unfold dot. rewrite <- (rsum_zero n). apply rsum_ext. intros; cbn; ring.
    + intros. unfold dot. rewrite <- rsum_plus. apply rsum_ext. intros; cbn; ring.
    + intros. unfold dot. rewrite <- rsum_opp. apply rsum_ext. intros; cbn; ring.
    + exact Hc.
    + auto.
  - apply Hs.
    + intros. unfold dot. rewrite <- (rsum_zero n). apply rsum_ext. intros; cbn; ring.
    + intros. unfold dot. rewrite <- rsum_plus. apply rsum_ext. intros; cbn; ring.
    + intros. unfold dot. rewrite <- rsum_opp. apply rsum_ext. intros; cbn; ring.
    + exact Hc.
Qed.
End C41.

Theorem C41_network_oracle :
  forall E finder n eval grad ev gr u x u' cut,
  finds_negative_cycles E finder ->
  (forall e x, In e E -> eval e x = Ok (ev e x)) -> (forall e x, In e E -> grad e x = Ok (gr e x)) ->
  concave_n E n ev gr ->
  network_call finder eval grad (fun _ => nzero) (fun a b i => nadd (a i) (b i)) (fun a i => nopp (a i)) u x
    = Ok (u', cut) ->
  match cut with
  | None => forall i j, In (i, j) E -> u' j - u' i <= ev (i, j) x
  | Some (g, f) => 0 < f /\
      forall z v, (forall i j, In (i, j) E -> v j - v i <= ev (i, j) z) ->
        dot n g (fun i => z i - x i) + f <= 0
  end.
Proof. exact network_vec_spec. Qed.
Print Assumptions C41_network_oracle.
(** the in-repo finder is such a finder *)
Theorem C41_repo_finder_qualifies :
  forall g, graph_ok g -> finds_negative_cycles (g_edges g) (cycles_of (A := R) g).
Proof. exact cycles_of_ok. Qed.
Print Assumptions C41_repo_finder_qualifies.

(** ** C42 *)
Section Ratio.
Variable E : list edge.
Variable finder : (nat -> R) -> (edge -> res R) -> res (list (list edge) * (nat -> R)).
Variables cost time : edge -> R.
(** z is a lower bound of the ratio of every cycle *)
Definition ratio_bound (z : R) : Prop := forall c, cycle E c -> z * total time c <= total cost c.
(** t (None: minus infinity) is at most / below z *)
Definition at_most (t : option R) (z : R) : Prop := match t with Some t => t <= z | None => True end.
Definition below (t : option R) (z : R) : Prop := match t with Some t => t < z | None => True end.

Lemma ratio_total x c : total (fun e => cost e - time e * x) c = total cost c - x * total time c.
Proof. induction c as [|e c IH]; cbn [total]; [lra|]. rewrite IH. lra. Qed.

Lemma ratio_network u x u' cut : finds_negative_cycles E finder ->
  network_call finder (ratio_eval cost time) (ratio_grad time) nzero nadd nopp u x = Ok (u', cut) ->
  match cut with
  | None => ratio_bound x
  | Some (g, f) => 0 < f /\ forall z, ratio_bound z -> g <> 0 /\ g * (z - x) + f <= 0
  end.
Proof.
  intros Hfin H.
  pose proof (network_call_spec E finder Hfin (ratio_eval cost time) (ratio_grad time) nzero nadd nopp
    (fun e x => cost e - time e * x) (fun e _ => - time e) (fun _ _ _ => eq_refl) (fun _ _ _ => eq_refl)
    (fun g x z => g * (z - x)) ltac:(intros; cbn; ring) ltac:(intros; cbn; ring) ltac:(intros; cbn; ring)
    ltac:(intros; cbn; nra) u x u' cut H) as Hs.
  destruct cut as [[g f]|].
  - destruct Hs as (Hf & c & Hc & Ef & Hg & _). split; [exact Hf|]. intros z Hz. specialize (Hz c Hc).
    rewrite ratio_total in Ef. specialize (Hg z).
    assert (Eg : total (fun e => - time e * (z - x)) c = - (total time c * (z - x))).
    { clear. induction c as [|e c IH]; cbn [total]; [lra|]. rewrite IH. lra. }
    rewrite Eg in Hg. assert (Hle : g * (z - x) + f <= 0) by lra. split; [|exact Hle].
    intros ->. lra.
  - intros c Hc. pose proof (potential_cycle E _ u' c Hs Hc) as Hp. rewrite ratio_total in Hp. lra.
Qed.
End Ratio.

Theorem C42_cycle_ratio_oracle :
  forall E finder cost time u x t u' g f t1, finds_negative_cycles E finder ->
  cycle_ratio_call finder cost time u x t = Ok (u', ((g, f), t1)) ->
  (forall r, t1 = Some r -> r = Some x /\ below t x /\ forall c, cycle E c -> x * total time c <= total cost c) /\
  (forall z, at_most (best t t1) z -> (forall c, cycle E c -> z * total time c <= total cost c) ->
     g * (z - x) + f <= 0) /\
  (t1 = None -> 0 < f \/ f = 0 /\ t = Some x).
Proof.
  intros E finder cost time u x t u' g f t1 Hfin H. unfold cycle_ratio_call in H.
  change (nleb (A := R)) with Rleb in H.
  set (b := match t with Some t0 => Rleb nzero (nsub t0 x) | None => false end) in H.
  destruct b eqn:B.
  - destruct t as [t|]; [|discriminate]. unfold b in B. apply Rleb_true in B. cbn in B.
    injection H as <- <- <- <-. split; [discriminate|]. cbn. split; [intros z Hz _; lra|].
    intros _. destruct (Rle_lt_or_eq_dec _ _ B) as [?|Eq]; [left; assumption|right; split; [lra|f_equal; lra]].
  - apply bind_ok in H as ([u1 cut] & Hn & H). pose proof (ratio_network E finder cost time u x u1 cut Hfin Hn) as Hs.
    destruct cut as [[g1 f1]|].
    + injection H as <- <- <- <-. destruct Hs as [Hf Hs]. split; [discriminate|]. split; [|auto].
      intros z _ Hz. apply (Hs z Hz).
    + injection H as <- <- <- <-. split; [|split; [|discriminate]].
      * intros r [= <-]. split; [reflexivity|]. split; [|exact Hs].
        destruct t as [t|]; [|exact I]. unfold b in B. apply Rleb_false in B. cbn in B |- *. lra.
      * cbn. intros z Hz _. lra.
Qed.
Print Assumptions C42_cycle_ratio_oracle.

(** ** C72: minimum cycle ratio end to end *)
Lemma cycle_ratio_optimizes g cost time : graph_ok g ->
  optimizes (cycle_ratio_call (cycles_of g) cost time) (fun _ => True)
    (fun x c z => fst c <> 0 /\ fst c * (z - x) + snd c <= 0)
    (fun t z => below t z /\ ratio_bound (g_edges g) cost time z).
Proof.
  intros Hg u x t u' [gr f] t1 _ H. split; [exact I|]. cbn [fst snd].
  pose proof (C42_cycle_ratio_oracle _ _ cost time u x t u' gr f t1 (cycles_of_ok g Hg) H) as (H1 & H2 & H3).
  split.
  - intros z [Hb Hz]. split.
    + unfold cycle_ratio_call in H. set (b := match t with Some t0 => _ | None => false end) in H.
      destruct b; [destruct t; [|discriminate]; injection H as <- <- <- <-; cbn; lra|].
      apply bind_ok in H as ([u1 cut] & Hn & H).
      pose proof (ratio_network (g_edges g) _ cost time u x u1 cut (cycles_of_ok g Hg) Hn) as Hs.
      destruct cut as [[g1 f1]|]; injection H as <- <- <- <-; [apply (proj2 Hs z Hz)|cbn; lra].
    + apply H2; [|exact Hz]. destruct (best t t1); cbn in *; lra.
  - intros z [Hb Hz]. split; [|exact Hz]. destruct t1 as [r|]; [|exact Hb].
    destruct (H1 r eq_refl) as (-> & Hlt & _). cbn in Hb. destruct t; cbn in *; lra.
Qed.
(** the best-so-far value at each iteration is at least the initial one *)
Lemma dc_replay_t_mono {St X V C Sc O T} (sp : space St X V C Sc) (omega : O -> V -> T -> res (O * (C * option T)))
  (le : T -> T -> Prop) : (forall a, le a a) -> (forall a b c, le a b -> le b c -> le a c) ->
  (forall o x t o' c t1, omega o x t = Ok (o', (c, Some t1)) -> le t1 t) ->
  forall o st t tr o' st' t', dc_replay sp omega o st t tr o' st' t' -> forall e, In e tr -> le (d_t e) t.
Proof.
  intros Hr Ht Hm o st t tr o' st' t' H. induction H as [|o st t c t1 o1 st1 s q tr o' st' t' Hw Hu Hrep IH]; intros e He.
  - destruct He.
  - destruct He as [<-|He]; [apply Hr|]. eapply Ht; [apply IH, He|]. destruct t1 as [u|]; cbn [best]; [|apply Hr].
    eapply Hm; eassumption.
Qed.
Definition at_least (a b : option R) : Prop :=
  match a, b with Some a, Some b => b <= a | None, Some _ => False | _, None => True end.
Lemma at_least_refl a : at_least a a.
Proof. destruct a; cbn; lra || exact I. Qed.
Lemma at_least_trans a b c : at_least a b -> at_least b c -> at_least a c.
Proof. destruct a, b, c; cbn; try tauto; lra. Qed.
Theorem C72_cycle_ratio_end_to_end :
  forall g cost time tneq max_it tol u e t tr u' e' xb t' info,
  graph_ok g -> 0 <= i_r e ->
  cutting_plane_dc ell1d_space Rltb tneq (cycle_ratio_call (cycles_of g) cost time) max_it tol u (tt, e) t
    = Ok (tr, u', (tt, e'), (xb, t', info)) ->
  let itv e z := i_xc e - i_r e <= z <= i_xc e + i_r e in
  let bound z := forall c, cycle (g_edges g) c -> z * total time c <= total cost c in
  (xb = None -> t' = t) /\
  (forall x, xb = Some x -> t' = Some x /\ below t x /\ bound x) /\
  (cstatus info = nosoln -> forall z, itv e z -> bound z -> ~ below t' z) /\
  (cstatus info <> nosoln -> forall z, itv e z -> bound z -> below t' z -> itv e' z).
Proof.
  intros g cost time tneq max_it tol u e t tr u' e' xb t' info Hg He H itv bound.
  pose proof (cycle_ratio_optimizes g cost time Hg) as Hopt.
  destruct (C06_dc_ell1d_never_loses_better _ _ tneq _ (fun _ => True) _ max_it tol u e t tr u' e' xb t' info Hopt He I H) as [H1 H2].
  assert (HI : forall (o : nat -> R) (x : R) t o' c t1, True ->
    cycle_ratio_call (cycles_of g) cost time o x t = Ok (o', (c, t1)) -> True) by auto.
  assert (Hrep : forall o x t o' c t1, True -> cycle_ratio_call (cycles_of g) cost time o x t = Ok (o', (c, Some t1)) ->
    t1 = Some x /\ below t x /\ bound x).
  { intros o x t0 o1 [gr f] t1 _ Hx.
    apply (proj1 (C42_cycle_ratio_oracle _ _ _ _ _ _ _ _ _ _ _ (cycles_of_ok g Hg) Hx) t1 eq_refl). }
  split; [|split; [|split]].
  - intros ->. destruct (C04_dc_last_improvement _ _ _ _ _ _ _ _ _ _ _ _ _ _ _ _ _ _ _ _ _ _ H) as (_ & [(_ & ? & _)|(? & ? & ? & _ & _ & _ & ?)] & _); congruence.
  - intros x ->.
    destruct (C05_dc_xbest_value_spaces_partial _ _ _ _ _ _ _ ell1d_space _ _ _ _ _ _ _ _ _ _ _ _ _ _ (fun _ _ _ => eq_refl) H)
      as (Hr & tr1 & ev & tr2 & -> & _ & Hev & Hx). cbn in Hx.
    destruct (dc_replay_in ell1d_space _ (fun _ => True) HI _ _ _ _ _ _ _ I Hr ev) as (o1 & o2 & _ & Ho);
      [apply in_or_app; right; left; reflexivity|].
    rewrite Hev in Ho. destruct (Hrep _ _ _ _ _ _ I Ho) as (E1 & E2 & E3). rewrite Hx in *.
    split; [exact E1|]. split; [|exact E3].
    pose proof (dc_replay_t_mono ell1d_space (cycle_ratio_call (cycles_of g) cost time) at_least at_least_refl at_least_trans
      ltac:(intros o y t0 o3 c t1 Hy; destruct (Hrep _ _ _ _ _ _ I Hy) as (-> & Hy2 & _); destruct t0; cbn in *; lra)
      _ _ _ _ _ _ _ Hr ev ltac:(apply in_or_app; right; left; reflexivity)) as Hm.
    destruct t as [t0|]; [|exact I]. destruct (d_t ev) as [d|]; cbn in *; [lra|tauto].
  - intros Hs z Hz Hbz Hb. apply (H1 Hs z Hz). split; assumption.
  - intros Hs z Hz Hbz Hb. apply (H2 Hs z Hz). split; assumption.
Qed.
Print Assumptions C72_cycle_ratio_end_to_end.

(** a triangle 0 -> 1 -> 2 -> 0 (ratio 6/3) and a two-cycle 0 <-> 1 (ratio 7/2): the optimum is 2 *)
Definition rg : digraph := {| g_nodes := [0; 1; 2]%nat; g_edges := [(0, 1); (1, 2); (2, 0); (1, 0)]%nat |}.
Definition rcost (e : edge) : Q := match e with (1, 0)%nat => 5%Q | _ => 2%Q end.
Definition rtime (_ : edge) : Q := 1%Q.
Lemma rg_ok : graph_ok rg.
Proof. intros u v H. cbn in H. repeat destruct H as [H|H]; try (injection H as <- <-; cbn; tauto); contradiction. Qed.
Definition oqneq (a b : option Q) : bool :=
  match a, b with Some a, Some b => negb (Qeq_bool a b) | None, None => false | _, _ => true end.
Example C42_C72_ex : graph_ok rg /\
  (exists u, cycle_ratio_call (cycles_of rg) rcost rtime (fun _ => 0%Q) 1%Q None
             = Ok (u, ((-1, 0)%Q, Some (Some 1%Q)))) /\
  (exists u, cycle_ratio_call (cycles_of rg) rcost rtime (fun _ => 0%Q) 3%Q None
             = Ok (u, ((3, 3)%Q, None))) /\
  exists tr u st', cutting_plane_dc ell1d_space Qltb oqneq (cycle_ratio_call (cycles_of rg) rcost rtime) 30 (1 # 100000)%Q
     (fun _ => 0%Q) (tt, {| i_r := 8%Q; i_xc := 4%Q |}) None
   = Ok (tr, u, st', (Some (2045 # 1024)%Q, Some (2045 # 1024)%Q, {| feasible := true; num_iters := 12; cstatus := smallenough |})).
Proof.
  split; [exact rg_ok|]. split; [eexists; vm_compute; reflexivity|].
  split; [eexists; vm_compute; reflexivity|]. 
  do 3 eexists. vm_compute. reflexivity.
Qed.

(** ** C43 *)
(** (pi, psi) = (x0, x1) is attainable: there is a scaling p (in log scale) with
    psi <= cost(i,j) + p_i - p_j <= pi for all entries above the diagonal. *)
Definition attainable (E : list edge) (cost : edge -> R) (x : nat -> R) : Prop :=
  exists p : nat -> R, forall i j, (i < j)%nat -> In (i, j) E ->
    x 1%nat <= cost (i, j) + p i - p j <= x 0%nat.
(** the digraph of a symmetric matrix: both directions of every edge, with the same cost *)
Definition sym_graph (E : list edge) (cost : edge -> R) : Prop :=
  (forall i j, In (i, j) E -> In (j, i) E /\ cost (j, i) = cost (i, j)).
Definition no_loops (E : list edge) : Prop := forall i, ~ In (i, i) E.

Definition sc_ev (cost : edge -> R) (e : edge) (x : nat -> R) : R :=
  if Nat.ltb (fst e) (snd e) then x 0%nat - cost e else cost e - x 1%nat.
Definition sc_gr (e : edge) (x : nat -> R) : nat -> R :=
  if Nat.ltb (fst e) (snd e) then arr2 1 0 else arr2 0 (- (1)).
Lemma attainable_iff E cost x : sym_graph E cost -> no_loops E ->
  (attainable E cost x <-> exists u, potential E (fun e => sc_ev cost e x) u).
Proof.
  intros Hs Hl. split.
  - intros (p & Hp). exists (fun i => - p i). intros i j Hij. unfold sc_ev. cbn [fst snd].
    destruct (Nat.ltb_spec i j) as [Hlt|Hge].
    + specialize (Hp i j Hlt Hij). lra.
    + assert (i <> j) by (intros ->; exact (Hl _ Hij)). destruct (Hs _ _ Hij) as [Hji Hc].
      specialize (Hp j i ltac:(lia) Hji). lra.
  - intros (u & Hu). exists (fun i => - u i). intros i j Hlt Hij. destruct (Hs _ _ Hij) as [Hji Hc].
    pose proof (Hu _ _ Hij) as H1. pose proof (Hu _ _ Hji) as H2. unfold sc_ev in H1, H2. cbn [fst snd] in H1, H2.
    rewrite (proj2 (Nat.ltb_lt i j) Hlt) in H1. rewrite (proj2 (Nat.ltb_ge j i)) in H2 by lia. lra.
Qed.
Lemma dot2 a b : dot 2 a b = a 0%nat * b 0%nat + a 1%nat * b 1%nat.
Proof. unfold dot, rsum; cbn. ring. Qed.
Lemma scaling_network E finder cost u x u' cut : finds_negative_cycles E finder -> no_loops E ->
  network_call finder (scaling_eval cost) scaling_grad
    (fun _ => nzero) (fun a b i => nadd (a i) (b i)) (fun a i => nopp (a i)) u x = Ok (u', cut) ->
  match cut with
  | None => potential E (fun e => sc_ev cost e x) u'
  | Some (g, f) => 0 < f /\
      forall z v, potential E (fun e => sc_ev cost e z) v -> dot 2 g (fun i => z i - x i) + f <= 0
  end.
Proof.
  intros Hfin Hl H. refine (network_vec_spec E finder 2 _ _ (sc_ev cost) sc_gr u x u' cut Hfin _ _ _ H).
  - intros [i j] y He. unfold scaling_eval, sc_ev. cbn [fst snd].
    destruct (Nat.eqb_spec i j) as [->|_]; [destruct (Hl _ He)|]. destruct (Nat.ltb i j); reflexivity.
  - intros [i j] y He. unfold scaling_grad, sc_gr. cbn [fst snd].
    destruct (Nat.eqb_spec i j) as [->|_]; [destruct (Hl _ He)|]. destruct (Nat.ltb i j); reflexivity.
  - intros [i j] y z _. rewrite dot2. unfold sc_ev, sc_gr. cbn [fst snd]. destruct (Nat.ltb i j); cbn; lra.
Qed.
Theorem C43_optscaling_oracle :
  forall E finder cost u x t u' g f t1, finds_negative_cycles E finder -> sym_graph E cost -> no_loops E ->
  optscaling_call finder cost u x t = Ok (u', ((g, f), t1)) ->
  (forall s, t1 = Some s -> s = x 0%nat - x 1%nat /\ s < t /\ attainable E cost x) /\
  (forall z, attainable E cost z -> z 0%nat - z 1%nat <= best t t1 -> dot 2 g (fun i => z i - x i) + f <= 0) /\
  (t1 = None -> 0 < f \/ f = 0 /\ t = x 0%nat - x 1%nat).
Proof.
  intros E finder cost u x t u' g f t1 Hfin Hs Hl H. unfold optscaling_call in H.
  change (nleb (A := R)) with Rleb in H.
  destruct (Rleb _ _) eqn:B.
  - apply Rleb_true in B. cbn in B. injection H as <- <- <- <-. split; [discriminate|]. split.
    + intros z _ Hz. rewrite dot2. cbn in *. lra.
    + intros _. cbn. destruct (Rle_lt_or_eq_dec _ _ B); [left; assumption|right; split; lra].
  - apply Rleb_false in B. cbn in B. apply bind_ok in H as ([u1 cut] & Hn & H).
    pose proof (scaling_network E finder cost u x u1 cut Hfin Hl Hn) as Hc. destruct cut as [[g1 f1]|].
    + injection H as <- <- <- <-. destruct Hc as [Hf Hc]. split; [discriminate|]. split; [|auto].
      intros z Hz _. apply attainable_iff in Hz as (v & Hv); [|assumption..]. apply (Hc z v Hv).
    + injection H as <- <- <- <-. split; [|split; [|discriminate]].
      * intros s [= <-]. split; [reflexivity|]. split; [cbn; lra|]. apply attainable_iff; [assumption..|eauto].
      * intros z _ Hz. rewrite dot2. cbn in *. lra.
Qed.
Print Assumptions C43_optscaling_oracle.
(** A self loop is always evaluated by the in-repo finder, and raises. *)
Theorem C43_self_loop_raises :
  forall g cost u x t i, In (i, i) (g_edges g) -> x 0%nat - x 1%nat < t ->
  optscaling_call (A := R) (cycles_of g) cost u x t = Raise AssertionError.
Proof.
  intros g cost u x t i Hi Ht. unfold optscaling_call.
  change (nleb (A := R)) with Rleb. destruct (Rleb _ _) eqn:B; [apply Rleb_true in B; cbn in B; lra|].
  unfold network_call, cycles_of, find_neg_cycle.
  assert (Hr : forall es d p ch, In (i, i) es ->
    relax_loop (A := R) (fun e => scaling_eval cost e x) es d p ch = Raise AssertionError).
  { induction es as [|[a b] es IH]; intros d p ch Hin; [destruct Hin|]. cbn [relax_loop scaling_eval].
    destruct (Nat.eqb_spec a b) as [->|Hab]; [reflexivity|]. cbn [bind].
    destruct Hin as [Heq|Hin]; [injection Heq as -> ->; contradiction|].
    destruct (nltb _ _); apply IH, Hin. }
  replace (Nat.max 1 (length (g_nodes g))) with (S (Nat.max 1 (length (g_nodes g)) - 1)) by lia.
  cbn [neg_cycle_loop]. unfold relax. rewrite Hr by exact Hi. reflexivity.
Qed.
Print Assumptions C43_self_loop_raises.

(** ** C73: optimal matrix scaling end to end *)
Definition scaling_omega g cost (u : nat -> R) (x : nat -> R) (t : R) : res ((nat -> R) * (cut R * option R)) :=
  ' (u', ((gr, f), t1)) <- optscaling_call (cycles_of g) cost u x t ;; Ok (u', ((gr, BScalar f), t1)).
Lemma scaling_omega_optimizes g cost : graph_ok g -> sym_graph (g_edges g) cost -> no_loops (g_edges g) ->
  optimizes (scaling_omega g cost) (fun _ => True) (sat_cut 2)
    (fun t z => attainable (g_edges g) cost z /\ z 0%nat - z 1%nat <= t).
Proof.
  intros Hg Hs Hl u x t u' c t1 _ H. unfold scaling_omega in H. apply bind_ok in H as ([u1 [[gr f] t2]] & Ho & H).
  injection H as <- <- <-.
  destruct (C43_optscaling_oracle _ _ cost u x t u1 gr f t2 (cycles_of_ok g Hg) Hs Hl Ho) as (H1 & H2 & _).
  split; [exact I|]. split.
  - intros z [Z1 Z2]. cbn. apply H2; assumption.
  - intros z [Z1 Z2]. split; [exact Z1|]. destruct t2 as [s|]; [|exact Z2]. destruct (H1 s eq_refl) as (-> & Hlt & _). cbn in Z2. lra.
Qed.
Theorem C73_optscaling_end_to_end :
  forall g cost tneq max_it tol u w e t tr u' w' e' xb t' info,
  graph_ok g -> sym_graph (g_edges g) cost -> no_loops (g_edges g) -> ell_wf e -> e_n e = 2%nat ->
  cutting_plane_dc ell_space Rltb tneq (scaling_omega g cost) max_it tol u (w, e) t
    = Ok (tr, u', (w', e'), (xb, t', info)) ->
  let good z := attainable (g_edges g) cost z /\ z 0%nat - z 1%nat <= t' in
  (cstatus info = nosoln -> forall z, mem_ell (w, e) z -> ~ good z) /\
  (cstatus info <> nosoln -> forall z, mem_ell (w, e) z -> good z -> mem_ell (w', e') z) /\
  (xb = None -> t' = t) /\
  (xb <> None -> t' < t /\ exists x, t' = x 0%nat - x 1%nat /\ attainable (g_edges g) cost x).
Proof.
  intros g cost tneq max_it tol u w e t tr u' w' e' xb t' info Hg Hs Hl He Hn H good.
  pose proof (scaling_omega_optimizes g cost Hg Hs Hl) as Hopt. rewrite <- Hn in Hopt.
  destruct (C06_dc_ell_never_loses_better _ _ tneq _ (fun _ => True) _ max_it tol u w e t tr u' w' e' xb t' info Hopt He I H) as [H1 H2].
  split; [exact H1|]. split; [exact H2|].
  assert (Hrep : forall o x t o' c t1, scaling_omega g cost o x t = Ok (o', (c, Some t1)) ->
    t1 = x 0%nat - x 1%nat /\ t1 < t /\ attainable (g_edges g) cost x).
  { intros o x t0 o1 c t1 Hx. unfold scaling_omega in Hx. apply bind_ok in Hx as ([u1 [[gr f] t2]] & Ho & Hx).
    injection Hx as <- <- ->. apply (proj1 (C43_optscaling_oracle _ _ cost _ _ _ _ _ _ _ (cycles_of_ok g Hg) Hs Hl Ho) t1 eq_refl). }
  destruct (C04_dc_last_improvement _ _ _ _ _ _ _ _ _ _ _ _ _ _ _ _ _ _ _ _ _ _ H) as (Hr & Hb & _).
  destruct Hb as [(_ & -> & ->)|(tr1 & ev & tr2 & -> & _ & Hev & Hxb)].
  - split; [reflexivity|congruence].
  - split; [congruence|]. intros _.
    assert (Hin : In ev (tr1 ++ ev :: tr2)) by (apply in_or_app; right; left; reflexivity).
    destruct (dc_replay_in ell_space (scaling_omega g cost) (fun _ => True) ltac:(auto) _ _ _ _ _ _ _ I Hr ev Hin) as (o1 & o2 & _ & Hx).
    rewrite Hev in Hx. destruct (Hrep _ _ _ _ _ _ Hx) as (E1 & E2 & E3).
    pose proof (dc_replay_t_mono ell_space (scaling_omega g cost) Rle Rle_refl Rle_trans
      ltac:(intros o y t0 o3 c t1 Hy; destruct (Hrep _ _ _ _ _ _ Hy) as (_ & ? & _); lra) _ _ _ _ _ _ _ Hr ev Hin) as Hm.
    split; [lra|]. exists (d_x ev). auto.
Qed.
Print Assumptions C73_optscaling_end_to_end.

(** a symmetric 3x3 pattern; the cost of entry (i,j) is i + j *)
Definition sg : digraph :=
  {| g_nodes := [0; 1; 2]%nat; g_edges := [(0, 1); (1, 0); (0, 2); (2, 0); (1, 2); (2, 1)]%nat |}.
Definition scost (e : edge) : R := IZR (Z.of_nat (fst e + snd e)).
Lemma sg_ok : graph_ok sg.
Proof. intros u v H. cbn in H. repeat destruct H as [H|H]; try (injection H as <- <-; cbn; tauto); contradiction. Qed.
Definition scostQ (e : edge) : Q := inject_Z (Z.of_nat (fst e + snd e)).
Example C43_C73_ex : graph_ok sg /\ sym_graph (g_edges sg) scost /\ no_loops (g_edges sg) /\
  ell_wf ball2 /\ e_n ball2 = 2%nat /\
  attainable (g_edges sg) scost (fun i => match i with 0%nat => 3 | _ => 1 end) /\
  (exists u, optscaling_call (cycles_of sg) scostQ (fun _ => 0%Q)
     (fun i => match i with 0%nat => 3 | _ => 1 end)%Q 4%Q = Ok (u, ((arr2 1 (-1), 0)%Q, Some 2%Q))) /\
  (exists u g, optscaling_call (cycles_of sg) scostQ (fun _ => 0%Q)
     (fun i => match i with 0%nat => 1 | _ => 2 end)%Q 4%Q = Ok (u, ((g, 1)%Q, None))).
Proof.
  split; [exact sg_ok|]. split.
  { intros i j H. split.
    - cbn in H. repeat destruct H as [H|H]; try (injection H as <- <-; cbn; tauto); contradiction.
    - unfold scost. cbn [fst snd]. rewrite Nat.add_comm. reflexivity. }
  split.
  { intros i H. cbn in H. repeat destruct H as [H|H]; try (injection H as <- H; discriminate H); contradiction. }
  split; [apply ball2_proper|]. split; [reflexivity|]. split.
  { exists (fun _ => 0). intros i j _ H. cbn in H.
    repeat destruct H as [H|H]; try (injection H as <- <-; unfold scost; cbn; lra); contradiction. }
  split; [eexists; vm_compute; reflexivity|]. do 2 eexists; vm_compute; reflexivity.
Qed.
