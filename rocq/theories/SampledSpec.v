(** Vocabulary for the sampled C-space. *)
From Coq Require Import Reals List.
From Verif Require Import AngleSpec AngleModel SampledModel.
Import ListNotations.
Open Scope R_scope.

(** All limitless joints are rotational, with no condition on the weights. *)
Definition regular (ds : list dim) : Prop := forall d, In d ds -> d_kind d <> Slide.

(** The value [x] of a joint is at the fraction [f] of the way from [a] to [b]; a limitless joint goes
    the shorter way round and its value is only determined up to full turns. *)
Definition value_at (d : dim) (a b f x : R) : Prop :=
  match d_kind d with
  | Circular _ => same_angle x (a + f * angle_delta a b)
  | _ => x = a + f * (b - a)
  end.

(** Configuration [q] is at the fraction [f] of the segment from [q1] to [q2]. *)
Inductive at_fraction (f : R) : list dim -> config -> config -> config -> Prop :=
| af_nil : at_fraction f [] [] [] []
| af_cons : forall d ds a q1 b q2 x q, value_at d a b f x -> at_fraction f ds q1 q2 q ->
    at_fraction f (d :: ds) (a :: q1) (b :: q2) (x :: q).

Definition on_segment (ds : list dim) (q1 q2 q : config) : Prop :=
  exists f, 0 <= f <= 1 /\ at_fraction f ds q1 q2 q.

(** A chain of configurations from [q1] to [q2] with steps of at most [eps], all of whose members after
    [q1] are acceptable. *)
Inductive chain (ds : list dim) (ok : config -> Prop) (eps : R) : config -> list config -> config -> Prop :=
| chain_nil : forall q, chain ds ok eps q [] q
| chain_step : forall q1 q l q2, calc_dist ds q1 q <= eps -> ok q ->
    chain ds ok eps q l q2 -> chain ds ok eps q1 (q :: l) q2.

(** The path stays on the part of the segment from [q1] to [q2] between the fractions [f] and [g] and
    never goes back. *)
Inductive forward_on_segment (ds : list dim) (q1 q2 : config) : R -> list config -> R -> Prop :=
| fos_nil : forall f g, f <= g -> forward_on_segment ds q1 q2 f [] g
| fos_cons : forall f h g q l, f <= h -> at_fraction h ds q1 q2 q ->
    forward_on_segment ds q1 q2 h l g -> forward_on_segment ds q1 q2 f (q :: l) g.

(** Consecutive configurations are at most [eps] apart. *)
Fixpoint spaced (ds : list dim) (eps : R) (l : list config) : Prop :=
  match l with
  | a :: ((b :: _) as r) => calc_dist ds a b <= eps /\ spaced ds eps r
  | _ => True
  end.

(** What [createPathUntilInvalid] demands of the configurations after the start: valid, and, except for
    the goal, inside the borders. *)
Definition accepted (free inside : config -> bool) (goal q : config) : Prop :=
  free q = true /\ (inside q = true \/ q = goal).

(** Every configuration on the segment from [x] to [y] is within [eps] of a configuration that was
    found valid. *)
Definition covered (ds : list dim) (free : config -> bool) (eps : R) (x y : config) : Prop :=
  forall z, on_segment ds x y z -> exists w, free w = true /\ calc_dist ds z w <= eps.
