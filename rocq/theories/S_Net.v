(** Walks and weights in a directed graph (no reference to the finder). *)
From Coq Require Import Reals Lra.
From Verif Require Import Base.
Local Open Scope R_scope.
Notation edge := (nat * nat)%type.

(** [walk E u c v]: c is a list of edges of E leading from u to v *)
Inductive walk (E : list edge) : nat -> list edge -> nat -> Prop :=
| W_nil u : walk E u [] u
| W_cons u v c t : In (u, v) E -> walk E v c t -> walk E u ((u, v) :: c) t.

(** a cycle: a non-empty closed walk *)
Definition cycle (E : list edge) (c : list edge) : Prop := c <> [] /\ exists u, walk E u c u.
(** a simple cycle enters no node twice *)
Definition simple_cycle (E : list edge) (c : list edge) : Prop := cycle E c /\ NoDup (map snd c).

Fixpoint total (w : edge -> R) (c : list edge) : R :=
  match c with [] => 0 | e :: c => w e + total w c end.

(** u satisfies all difference constraints u_j - u_i <= w(i,j) *)
Definition potential (E : list edge) (w : edge -> R) (u : nat -> R) : Prop :=
  forall i j, In (i, j) E -> u j - u i <= w (i, j).

(** what is asked of a negative cycle finder over the edges E, for weights that are defined on E *)
Definition finds_negative_cycles (E : list edge)
    (finder : (nat -> R) -> (edge -> res R) -> res (list (list edge) * (nat -> R))) : Prop :=
  forall u wr w cs u', (forall e, In e E -> wr e = Ok (w e)) -> finder u wr = Ok (cs, u') ->
    match cs with
    | [] => potential E w u'
    | c :: _ => cycle E (rev c) /\ total w c < 0
    end.
