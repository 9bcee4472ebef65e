(** Model of the construction of a PQP model, PQP++/PQP.cpp:62-262 and PQP++/Build.cpp:386-632: the call
    protocol BeginModel / AddTri / EndModel and the bounding volume tree.  The fitting of a volume to triangles, the
    choice of the splitting plane and the change to the coordinates of the parent are parameters.  [None] is undefined
    behaviour (access outside an array, double deletion) or exhausted fuel.  Not modelled: the capacity of the arrays
    (amortised growth), failed allocation, warnings. *)
From Coq Require Import List ZArith Bool PeanoNat.
From Verif Require Import PqpModel.
Import ListNotations.
Open Scope nat_scope.

Section Build.
Context {V G : Type}.

(** [fit]: [FitToTris] in the coordinate system found for the triangles; [below]: "x <= c" for the triangle, [x] its
    centroid along the main axis of the given triangles, [c] the coordinate of their mean; [relative parent v]: [v] in
    the coordinates of [parent]; [world]: identity and zero vector. *)
Record builder := Builder {
  fit : list (tri G) -> V; below : list (tri G) -> tri G -> bool; relative : V -> V -> V; world : V }.
Variable bd : builder.

(** Assignment to an array element. *)
Fixpoint assign {A : Type} (l : list A) (i : nat) (x : A) : option (list A) :=
  match l, i with
  | [], _ => None
  | _ :: l, O => Some (x :: l)
  | y :: l, S i => match assign l i x with Some l => Some (y :: l) | None => None end
  end.

(** The loop of [split_tris], Build.cpp:401-430: [n] iterations from index [i]; the array and [c1]. *)
Fixpoint split_loop (p : tri G -> bool) (n i c1 : nat) (l : list (tri G)) : option (list (tri G) * nat) :=
  match n with
  | O => Some (l, c1)
  | S n =>
      match nth_error l i with
      | None => None
      | Some ti =>
          if p ti then
            match nth_error l c1 with
            | None => None
            | Some tc =>
                match assign l i tc with
                | None => None
                | Some l => match assign l c1 ti with Some l => split_loop p n (S i) (S c1) l | None => None end
                end
            end
          else split_loop p n (S i) c1 l
      end
  end.

(** [Builder::split_tris], Build.cpp:392-439, on the array of the triangles to split. *)
Definition split_tris (p : tri G -> bool) (l : list (tri G)) : option (list (tri G) * nat) :=
  match split_loop p (length l) 0 0 l with
  | None => None
  | Some (l', c1) => Some (l', if (c1 =? 0) || (c1 =? length l) then length l / 2 else c1)
  end.

(** The state of the construction: [tris], [b], [num_bvs]. *)
Record bstate := BState { s_tris : list (tri G); s_bvs : list (bvol V); s_num : nat }.

Definition sub {A : Type} (l : list A) (first num : nat) : list A := firstn num (skipn first l).
Definition splice {A : Type} (l : list A) (first : nat) (r : list A) : list A :=
  firstn first l ++ r ++ skipn (first + length r) l.

(** [Builder::build_recurse], Build.cpp:443-549. *)
Fixpoint build_recurse (fuel : nat) (st : bstate) (bn first num : nat) : option bstate :=
  match fuel with
  | O => None
  | S fuel =>
      if (num =? 0) || (length (s_tris st) <? first + num) then None
      else
        let ts := sub (s_tris st) first num in
        let v := fit bd ts in
        if num =? 1 then
          match assign (s_bvs st) bn (BVol (- (Z.of_nat first + 1)) v) with
          | Some bvs => Some (BState (s_tris st) bvs (s_num st))
          | None => None
          end
        else
          match assign (s_bvs st) bn (BVol (Z.of_nat (s_num st)) v), split_tris (below bd ts) ts with
          | Some bvs, Some (ts', k) =>
              let st := BState (splice (s_tris st) first ts') bvs (s_num st + 2) in
              match nth_error (s_bvs st) bn with
              | None => None
              | Some b =>
                  match build_recurse fuel st (Z.to_nat (first_child b)) first k with
                  | None => None
                  | Some st =>
                      match nth_error (s_bvs st) bn with
                      | None => None
                      | Some b => build_recurse fuel st (Z.to_nat (first_child b) + 1) (first + k) (num - k)
                      end
                  end
              end
          | _, _ => None
          end
  end.

(** [Builder::make_parent_relative], Build.cpp:553-602. *)
Fixpoint make_parent_relative (fuel : nat) (bvs : list (bvol V)) (bn : nat) (parent : V) : option (list (bvol V)) :=
  match fuel with
  | O => None
  | S fuel =>
      match nth_error bvs bn with
      | None => None
      | Some b =>
          let bvs :=
            if leaf b then Some bvs
            else
              match make_parent_relative fuel bvs (Z.to_nat (first_child b)) (vol b) with
              | None => None
              | Some bvs =>
                  match nth_error bvs bn with
                  | None => None
                  | Some b => make_parent_relative fuel bvs (Z.to_nat (first_child b) + 1) (vol b)
                  end
              end in
          match bvs with
          | None => None
          | Some bvs =>
              match nth_error bvs bn with
              | None => None
              | Some b => assign bvs bn (BVol (first_child b) (relative bd parent (vol b)))
              end
          end
      end
  end.

(** [Builder::build_model], Build.cpp:605-632, with the allocation in [EndModel], PQP.cpp:239; [junk] is the
    initial content of the array. *)
Definition build_model (junk : bvol V) (tris : list (tri G)) : option (model V G) :=
  let n := length tris in
  match build_recurse (S n) (BState tris (repeat junk (2 * n - 1)) 1) 0 0 n with
  | None => None
  | Some st =>
      match make_parent_relative (S n) (s_bvs st) 0 (world bd) with
      | None => None
      | Some bvs => Some (Model (s_tris st) bvs)
      end
  end.

(** [build_state] and the pointer [b]: null, allocated, or deleted but not reset. *)
Inductive phase := Empty | Begun | Processed.
Inductive pointer := Null | Owned | Dangling.
Record pmodel := PModel { pm_phase : phase; pm_b : pointer; pm_model : model V G }.
Inductive status := PQP_OK | OutOfSequence | EmptyModel.

(** The constructor, PQP.cpp:62-79. *)
Definition pm_new : pmodel := PModel Empty Null (Model [] []).

(** [delete [] b]. *)
Definition delete_ok (p : pointer) : bool := match p with Dangling => false | _ => true end.
Definition deleted (p : pointer) : pointer := match p with Null => Null | _ => Dangling end.

(** [PQP_Model::BeginModel], PQP.cpp:94-138. *)
Definition begin_model (m : pmodel) : option (pmodel * status) :=
  match pm_phase m with
  | Empty => Some (PModel Begun (pm_b m) (Model [] []), PQP_OK)
  | _ => if delete_ok (pm_b m) then Some (PModel Begun (deleted (pm_b m)) (Model [] []), OutOfSequence) else None
  end.

(** [PQP_Model::AddTri], PQP.cpp:140-198. *)
Definition add_tri (m : pmodel) (t : tri G) : option (pmodel * status) :=
  match pm_phase m with
  | Processed => Some (m, OutOfSequence)
  | _ => Some (PModel Begun (pm_b m) (Model (m_tris (pm_model m) ++ [t]) []), PQP_OK)
  end.

(** [PQP_Model::EndModel], PQP.cpp:200-262. *)
Definition end_model (junk : bvol V) (m : pmodel) : option (pmodel * status) :=
  match pm_phase m with
  | Processed => Some (m, OutOfSequence)
  | _ =>
      match m_tris (pm_model m) with
      | [] => Some (m, EmptyModel)
      | ts => match build_model junk ts with
              | None => None
              | Some mo => Some (PModel Processed Owned mo, PQP_OK)
              end
      end
  end.

(** The destructor, PQP.cpp:81-92: is it defined. *)
Definition destroy (m : pmodel) : bool := delete_ok (pm_b m).

Inductive pcall := Begin | AddT (t : tri G) | End (junk : bvol V).
Definition pstep (m : pmodel) (c : pcall) : option (pmodel * status) :=
  match c with Begin => begin_model m | AddT t => add_tri m t | End j => end_model j m end.
Fixpoint pcalls (m : pmodel) (cs : list pcall) : option (pmodel * list status) :=
  match cs with
  | [] => Some (m, [])
  | c :: cs => match pstep m c with
               | None => None
               | Some (m, s) => match pcalls m cs with Some (m, ss) => Some (m, s :: ss) | None => None end
               end
  end.
End Build.
Arguments builder : clear implicits.
Arguments bstate : clear implicits.
Arguments pmodel : clear implicits.
Arguments pcall : clear implicits.
