(** Model of src/ellpy/oracles/neg_cycle.tpy, network_oracle.py, cycle_ratio_oracle.py and
    optscaling_oracle.py.

    Nodes are natural numbers (any hashable nodes, numbered); a graph is its list of nodes
    and its list of edges, in iteration order.  [dist] (a list or dict with an entry for every node) is a
    total function, so a missing key is not modelled; [pred] and [visited] are partial functions.
    [get_weight] is a deterministic function that may raise.  Loops that Python writes [while True]
    have fuel; theorem C40 shows that it never runs out. *)
From Verif Require Import Base.

Notation edge := (nat * nat)%type.
Record digraph := { g_nodes : list nat; g_edges : list edge }.

Definition pset {B} (f : nat -> option B) (k : nat) (x : B) : nat -> option B :=
  fun i => if Nat.eqb i k then Some x else f i.

Section Finder.
Context {A : Type} `{Num A}.
Local Open Scope num_scope.
Implicit Types (dist : nat -> A) (pred : nat -> option nat).

(** neg_cycle.tpy:101-109, the loop of _relax; [changed] is the flag of line 100 *)
Fixpoint relax_loop (w : edge -> res A) (es : list edge) dist pred (changed : bool)
  : res ((nat -> A) * (nat -> option nat) * bool) :=
  match es with
  | [] => Ok (dist, pred, changed)
  | (u, v) :: es =>
      wt <- w (u, v) ;;                                           (* :102 *)
      let d := dist u + wt in                                     (* :104 *)
      if d <? dist v                                              (* :105 *)
      then relax_loop w es (vset dist v d) (pset pred v u) true   (* :106-108 *)
      else relax_loop w es dist pred changed
  end.
Definition relax (g : digraph) (w : edge -> res A) dist pred :=
  relax_loop w (g_edges g) dist pred false.

(** neg_cycle.tpy:72-83: the walk from start node v; returns the node of line 82 if any, and visited *)
Fixpoint walk_loop (fuel : nat) pred (v u : nat) (visited : nat -> option nat)
  : res (option nat * (nat -> option nat)) :=
  match fuel with
  | O => Raise OutOfFuel
  | S fuel =>
      let visited := pset visited u v in                          (* :73 *)
      match pred u with
      | None => Ok (None, visited)                                (* :74-75 *)
      | Some u' =>                                                (* :76 *)
          match visited u' with
          | Some l => if Nat.eqb l v then Ok (Some u', visited)   (* :79-82 *)
                      else Ok (None, visited)                     (* :83 *)
          | None => walk_loop fuel pred v u' visited
          end
      end
  end.
(** neg_cycle.tpy:68-84 *)
Fixpoint find_cycle_loop (fuel : nat) (vs : list nat) pred (visited : nat -> option nat)
  : res (option nat) :=
  match vs with
  | [] => Ok None
  | v :: vs =>
      match visited v with
      | Some _ => find_cycle_loop fuel vs pred visited            (* :69-70 *)
      | None =>
          '(r, visited) <- walk_loop fuel pred v v visited ;;
          match r with
          | Some u => Ok (Some u)
          | None => find_cycle_loop fuel vs pred visited
          end
      end
  end.
(** neg_cycle.tpy:54-84 _find_cycle *)
Definition find_cycle (g : digraph) pred : res (option nat) :=
  find_cycle_loop (length (g_nodes g)) (g_nodes g) pred (fun _ => None).

(** neg_cycle.tpy:122-128, the loop of _cycle_list *)
Fixpoint cycle_list_loop (fuel : nat) pred (handle v : nat) : res (list edge) :=
  match fuel with
  | O => Raise OutOfFuel
  | S fuel =>
      match pred v with
      | None => Raise KeyError
      | Some u =>
          if Nat.eqb u handle then Ok [(u, v)]
          else rest <- cycle_list_loop fuel pred handle u ;; Ok ((u, v) :: rest)
      end
  end.
(** neg_cycle.tpy:141-149, the loop of _is_negative *)
Fixpoint is_negative_loop (fuel : nat) (w : edge -> res A) dist pred (handle v : nat) : res bool :=
  match fuel with
  | O => Raise OutOfFuel
  | S fuel =>
      match pred v with
      | None => Raise KeyError
      | Some u =>
          wt <- w (u, v) ;;
          if dist u + wt <? dist v then Ok true
          else if Nat.eqb u handle then Ok false
          else is_negative_loop fuel w dist pred handle u
      end
  end.

(** neg_cycle.tpy:43-50; one unit of fuel per pass of _relax.  [dist] is updated in place, so its final
    contents are returned. *)
Fixpoint neg_cycle_loop (fuel : nat) (g : digraph) (w : edge -> res A) dist pred
  : res (list edge * (nat -> A)) :=
  match fuel with
  | O => Raise OutOfFuel
  | S fuel =>
      '(dist, pred, changed) <- relax g w dist pred ;;
      if changed : bool then
        r <- find_cycle g pred ;;
        match r with
        | Some v =>
            b <- is_negative_loop (length (g_nodes g)) w dist pred v v ;;
            if b : bool then
              c <- cycle_list_loop (length (g_nodes g)) pred v v ;; Ok (c, dist)
            else Raise AssertionError                             (* :47 *)
        | None => neg_cycle_loop fuel g w dist pred
        end
      else Ok ([], dist)
  end.
(** neg_cycle.tpy:31-50 find_neg_cycle; at most |V| passes (one if there are no nodes) *)
Definition find_neg_cycle (g : digraph) (w : edge -> res A) dist : res (list edge * (nat -> A)) :=
  neg_cycle_loop (Nat.max 1 (length (g_nodes g))) g w dist (fun _ => None).
End Finder.

(** network_oracle.py.  The oracle is written for a finder that yields cycles
    (netoptim.neg_cycle, an external package); it is modelled over an arbitrary finder, given by the
    cycles it yields and the contents of [dist] when it yields the first or ends.  [cycles_of]
    adapts the in-repo finder, which returns one cycle or the empty list. *)
Section Network.
Context {A X G : Type} `{Num A}.
Variable finder : (nat -> A) -> (edge -> res A) -> res (list (list edge) * (nat -> A)).
Variable eval : edge -> X -> res A.                      (* h.eval *)
Variable grad : edge -> X -> res G.                      (* h.grad *)
(** Python's 0, + and unary - on gradients *)
Variables (gzero : G) (gadd : G -> G -> G) (gopp : G -> G).

(** sum(f(e) for e in c): left fold from 0 *)
Fixpoint lsum {B} (add : B -> B -> B) (f : edge -> res B) (c : list edge) (acc : B) : res B :=
  match c with
  | [] => Ok acc
  | e :: c => b <- f e ;; lsum add f c (add acc b)
  end.

(** network_oracle.py:39-64 __call__; the state is the contents of u *)
Definition network_call (u : nat -> A) (x : X) : res ((nat -> A) * option (G * A)) :=
  '(cs, u) <- finder u (fun e => eval e x) ;;
  match cs with
  | [] => Ok (u, None)
  | c :: _ =>
      f <- lsum nadd (fun e => eval e x) c nzero ;;
      g <- lsum gadd (fun e => grad e x) c gzero ;;
      Ok (u, Some (gopp g, nopp f))
  end.
End Network.

Definition cycles_of {A} `{Num A} (g : digraph) (u : nat -> A) (w : edge -> res A)
  : res (list (list edge) * (nat -> A)) :=
  '(c, u) <- find_neg_cycle g w u ;;
  Ok (match c with [] => [] | _ => [c] end, u).

Section CycleRatio.
Context {A : Type} `{Num A}.
Local Open Scope num_scope.
Variable finder : (nat -> A) -> (edge -> res A) -> res (list (list edge) * (nat -> A)).
Variables cost time : edge -> A.                         (* G[u][v]["cost"], G[u][v]["time"] *)

(** cycle_ratio_oracle.py:35-48 ratio.eval *)
Definition ratio_eval (e : edge) (x : A) : res A := Ok (cost e - time e * x).
(** cycle_ratio_oracle.py:50-62 ratio.grad *)
Definition ratio_grad (e : edge) (x : A) : res A := Ok (- time e).

(** cycle_ratio_oracle.py:72-93 __call__.  [t = None] stands for float("-inf"), for which
    [t - x >= 0] is false. *)
Definition cycle_ratio_call (u : nat -> A) (x : A) (t : option A)
  : res ((nat -> A) * ((A * A) * option (option A))) :=
  let stop := match t with Some t => nzero <=? (t - x) | None => false end in
  if stop then
    match t with
    | Some t => Ok (u, ((- none, t - x), None))                   (* :85-87 *)
    | None => Raise TypeError
    end
  else
    '(u, cut) <- network_call finder ratio_eval ratio_grad nzero nadd nopp u x ;;
    match cut with
    | Some c => Ok (u, (c, None))                                 (* :89-91 *)
    | None => Ok (u, ((- none, nzero), Some (Some x)))            (* :93 *)
    end.
End CycleRatio.

Section OptScaling.
Context {A : Type} `{Num A}.
Local Open Scope num_scope.
Variable finder : (nat -> A) -> (edge -> res A) -> res (list (list edge) * (nat -> A)).
Variable cost : edge -> A.                               (* get_cost *)

(** optscaling_oracle.py:34-47 Ratio.eval; x = (pi, psi) in log scale *)
Definition scaling_eval (e : edge) (x : nat -> A) : res A :=
  let '(u, v) := e in
  if Nat.eqb u v then Raise AssertionError
  else Ok (if Nat.ltb u v then x 0%nat - cost e else cost e - x 1%nat).
(** np.array([a, b]) *)
Definition arr2 (a b : A) : nat -> A := fun i => match i with 0%nat => a | 1%nat => b | _ => nzero end.
(** optscaling_oracle.py:49-61 Ratio.grad *)
Definition scaling_grad (e : edge) (x : nat -> A) : res (nat -> A) :=
  let '(u, v) := e in
  if Nat.eqb u v then Raise AssertionError
  else Ok (if Nat.ltb u v then arr2 none nzero else arr2 nzero (- none)).

(** optscaling_oracle.py:71-94 __call__ *)
Definition optscaling_call (u : nat -> A) (x : nat -> A) (t : A)
  : res ((nat -> A) * (((nat -> A) * A) * option A)) :=
  let s := x 0%nat - x 1%nat in                                   (* :84 *)
  let fj := s - t in
  let g := arr2 none (- none) in
  if nzero <=? fj then Ok (u, ((g, fj), None))                    (* :87-88 *)
  else
    '(u, cut) <- network_call finder scaling_eval scaling_grad
                   (fun _ => nzero) (fun a b i => a i + b i) (fun a i => - a i) u x ;;
    match cut with
    | Some c => Ok (u, (c, None))                                 (* :90-92 *)
    | None => Ok (u, ((g, nzero), Some s))                        (* :94 *)
    end.
End OptScaling.
