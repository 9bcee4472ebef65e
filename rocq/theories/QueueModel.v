(** Model of the priority queue of bounding volume tests,
    VirtualRobot/CollisionDetection/PQP/PQP++/BVTQ.h.  Distances are rational numbers (finite
    [double]s); the rest of a test is a parameter.  [None] is undefined behaviour: an access outside an
    array or through an uninitialised pointer. *)
From Coq Require Import List QArith Bool PeanoNat.
Import ListNotations.
Open Scope nat_scope.

Section Queue.
Context {A : Type}.

(** [struct BVT], BVTQ.h:51-59, without [pindex]. *)
Record test := Test { t_d : Q; t_data : A }.

(** [class BVTQ], BVTQ.h:61-66: [size], [numtests], the array [bvt] (test and [pindex] of each slot) and the
    array [bvtp] of pointers to slots, [None] if uninitialised. *)
Record queue := Queue { q_size : nat; q_n : nat; q_bvt : nat -> test * nat; q_ptr : nat -> option nat }.

Definition upd {B : Type} (f : nat -> B) (i : nat) (v : B) : nat -> B := fun j => if j =? i then v else f j.

(** The constructor, BVTQ.h:69-75; [bvt] holds unspecified values. *)
Definition new_queue (size : nat) (junk : nat -> test * nat) : queue := Queue size 0 junk (fun _ => None).

(** [LChild] and [Parent], BVTQ.h:102-115. *)
Definition lchild (p : nat) : nat := 2 * p + 1.
Definition parent (c : nat) : nat := (c - 1) / 2.

(** [bvtp[i]->d]. *)
Definition key (q : queue) (i : nat) : option Q :=
  if i <? q_size q then
    match q_ptr q i with Some s => if s <? q_size q then Some (t_d (fst (q_bvt q s))) else None | None => None end
  else None.

Definition set_pindex (q : queue) (s i : nat) : queue :=
  Queue (q_size q) (q_n q) (upd (q_bvt q) s (fst (q_bvt q s), i)) (q_ptr q).

(** Swap the pointers at p and c and correct the back indices, BVTQ.h:133-142, 193-199, 215-221. *)
Definition swap (q : queue) (p c : nat) : option queue :=
  match q_ptr q p, q_ptr q c with
  | Some sp, Some sc =>
      let q := Queue (q_size q) (q_n q) (q_bvt q) (upd (upd (q_ptr q) p (Some sc)) c (Some sp)) in
      Some (set_pindex (set_pindex q sc p) sp c)
  | _, _ => None
  end.

(** The loop of [AddTest], BVTQ.h:131-145; it stops after at most c iterations. *)
Fixpoint sift_up (fuel : nat) (q : queue) (c : nat) : option queue :=
  match fuel with
  | O => None
  | S fuel =>
      if c =? 0 then Some q
      else
        let p := parent c in
        match key q p, key q c with
        | Some kp, Some kc =>
            if Qle_bool kc kp then
              match swap q p c with Some q => sift_up fuel q p | None => None end
            else Some q
        | _, _ => None
        end
  end.

(** [BVTQ::AddTest], BVTQ.h:118-148. *)
Definition add_test (q : queue) (t : test) : option queue :=
  let n := q_n q in
  if n <? q_size q then
    let q := Queue (q_size q) n (upd (q_bvt q) n (t, n)) (upd (q_ptr q) n (Some n)) in
    match sift_up (S n) q n with
    | Some q => Some (Queue (q_size q) (S (q_n q)) (q_bvt q) (q_ptr q))
    | None => None
    end
  else None.

(** The loop of [ExtractMinTest], BVTQ.h:172-240. *)
Fixpoint sift_down (fuel : nat) (q : queue) (p : nat) : option queue :=
  match fuel with
  | O => None
  | S fuel =>
      let c1 := lchild p in
      let c2 := c1 + 1 in
      if c1 <? q_n q then
        if c2 <? q_n q then
          match key q c1, key q c2 with
          | Some k1, Some k2 =>
              let c := if negb (Qle_bool k2 k1) then c1 else c2 in
              match key q c, key q p with
              | Some kc, Some kp =>
                  if negb (Qle_bool kp kc) then
                    match swap q p c with Some q => sift_down fuel q c | None => None end
                  else Some q
              | _, _ => None
              end
          | _, _ => None
          end
        else
          match key q c1, key q p with
          | Some kc, Some kp =>
              if negb (Qle_bool kp kc) then
                match swap q p c1 with Some q => sift_down fuel q c1 | None => None end
              else Some q
          | _, _ => None
          end
      else Some q
  end.

(** [BVTQ::ExtractMinTest], BVTQ.h:150-243. *)
Definition extract_min (q : queue) : option (test * queue) :=
  match q_n q with
  | O => None
  | S m =>
      match q_ptr q 0 with
      | None => None
      | Some a =>
          let min_test := fst (q_bvt q a) in
          let last := q_bvt q m in
          let k := snd last in
          if ((a <? q_size q) && (m <? q_size q) && (k <? q_size q))%bool then
            let bvt := upd (q_bvt q) a last in
            let ptr := upd (q_ptr q) k (Some a) in
            match ptr m with
            | None => None
            | Some b =>
                let q := Queue (q_size q) m bvt (upd ptr 0 (Some b)) in
                match sift_down (S m) q 0 with
                | Some q => Some (min_test, q)
                | None => None
                end
            end
          else None
      end
  end.

(** [BVTQ::MinTest], BVTQ.h:93-96. *)
Definition min_test (q : queue) : option Q := key q 0.

(** A history of calls; the results of the extractions. *)
Inductive call := Add (t : test) | Extract.
Fixpoint run (q : queue) (cs : list call) : option (list test * queue) :=
  match cs with
  | [] => Some ([], q)
  | Add t :: cs => match add_test q t with Some q => run q cs | None => None end
  | Extract :: cs =>
      match extract_min q with
      | Some (t, q) => match run q cs with Some (ts, q) => Some (t :: ts, q) | None => None end
      | None => None
      end
  end.
End Queue.
Arguments test : clear implicits.
Arguments queue : clear implicits.
Arguments call : clear implicits.
