(** What the grasp quality properties talk about: wrenches a grasp can apply, friction cones, convex hulls, what is asked of qhull. *)
From Coq Require Import Reals List.
From Verif Require Import QuatModel GwsModel.
Import ListNotations.
Open Scope R_scope.

(** A linear combination of wrenches. *)
Fixpoint comb (cs : list R) (ws : list wrench) : wrench :=
  match cs, ws with c :: cs, w :: ws => wadd (wscale c w) (comb cs ws) | _, _ => wzero end.
Definition sum (cs : list R) : R := fold_right Rplus 0 cs.
(** The convex hull of a list of points. *)
Definition in_hull (ws : list wrench) (x : wrench) : Prop :=
  exists cs, length cs = length ws /\ Forall (fun c => 0 <= c) cs /\ sum cs = 1 /\ comb cs ws = x.

(** What is asked of qhull: facets with outer normals of length one such that the half spaces together are the convex hull of the
    points, and vertices that are among the points. *)
Definition encloses (pts : list wrench) (a : answer) : Prop :=
  a_facets a <> [] /\ a_verts a <> [] /\ (forall v, In v (a_verts a) -> In v pts) /\
  forall x, in_hull pts x <-> forall f, In f (a_facets a) -> wdot (f_normal f) x + f_offset f <= 0.
Definition unit_normals (a : answer) : Prop := forall f, In f (a_facets a) -> wdot (f_normal f) (f_normal f) = 1 /\ f_verts f <> [].
Definition qhull_ok (qh : list wrench -> option answer) : Prop :=
  forall pts a, qh pts = Some a -> encloses pts a /\ unit_normals a.

(** A finger pushes at the point [p] along [f]: the wrench on the object (force, and torque about its centre). *)
Definition push (p f : vec3) : wrench := (f, vcross p f).
(** The pushes of a grasp: at every contact against each of the directions of its cone (the directions lead out of the object). *)
Definition pushes (ps : params) (l : list contact) : list wrench :=
  flat_map (fun c => map (fun d => push (c_p c) (vneg (c_n d))) (cone_points (p_samples ps) (p_mu ps) (p_unit ps) c)) l.
(** A wrench the grasp can apply: pushes along the directions of the cones with forces of any size. *)
Definition applicable (ps : params) (l : list contact) (w : wrench) : Prop :=
  exists cs, length cs = length (pushes ps l) /\ Forall (fun c => 0 <= c) cs /\ comb cs (pushes ps l) = w.

(** Coulomb's friction cone about the unit normal [n]: the tangential part of [f] is at most [mu] times its normal part. *)
Definition within_friction_cone (mu : R) (n f : vec3) : Prop :=
  0 <= vdot f n /\ vnorm (vsub f (vscale (vdot f n) n)) <= mu * vdot f n.

(** The largest ball about [c] in the convex hull of [ws] has radius [r]. *)
Definition largest_ball (ws : list wrench) (c : wrench) (r : R) : Prop :=
  0 <= r /\
  (forall d, wdot d d <= r * r -> in_hull ws (wadd c d)) /\
  (forall r', r < r' -> exists d, wdot d d <= r' * r' /\ ~ in_hull ws (wadd c d)).
