(* Concurrent use of one node of utils/tree.go, as the memory accesses to its Downs field.

   Simplifications: the slice header and the elements of the array behind it are one memory
   location, a scan of them is one read, and append is one write (it reads as well).  Names of
   nodes do not change after NewTree.  The Data field is a sync.Map and has no races; Up is
   written only.  The loops over children at lines 99, 143 and 163 are each one read of the node
   they are at, as GetNode is. *)

From Verif Require Import Base.

(* What a goroutine calls on the node. *)
Inductive tcall :=
| CAdd (name : string)       (* AddNode, utils/tree.go:56-68 *)
| CGet (name : string)       (* GetNode with one name, 89-105 *)
| CDelete (name : string).   (* DeleteNode, 108-123 *)

(* What it does to the memory and the mutex. *)
Inductive op := ORead | OWrite | OLock | OUnlock.
Definition event : Type := nat * op.

(* Where it is. *)
Inductive tpos :=
| TIdle                       (* between calls *)
| TAbsent (name : string)     (* in AddNode, grep has found nothing; before line 62 *)
| TAppend (name : string)     (* in AddNode with the lock; before line 64 *)
| TRemove (name : string)     (* in DeleteNode with the lock; before line 111 *)
| TRelease.                   (* before mu.Unlock, lines 66, 118 and 122 *)

Record routine := mkRoutine { r_pos : tpos; r_calls : list tcall }.
Record rstate := mkR { r_downs : list string; r_lock : option nat; r_all : list routine }.

Definition has (n : string) (ds : list string) : bool := existsb (String.eqb n) ds.
(* append(Downs[:i], Downs[i+1:]...) for the first i of the name, 111-117 *)
Fixpoint drop_first (n : string) (ds : list string) : list string :=
  match ds with
  | [] => []
  | d :: ds' => if String.eqb n d then ds' else d :: drop_first n ds'
  end.
Fixpoint put (i : nat) (r : routine) (l : list routine) : list routine :=
  match l, i with
  | [], _ => []
  | _ :: l', O => r :: l'
  | x :: l', S i' => x :: put i' r l'
  end.

(* One step of goroutine i, and what it does; None if it is finished or waits for the mutex. *)
Definition rstep (s : rstate) (i : nat) : option (rstate * option op) :=
  match nth_error (r_all s) i with
  | None => None
  | Some r =>
    let next ds lock p cs o := Some (mkR ds lock (put i (mkRoutine p cs) (r_all s)), o) in
    match r_pos r with
    | TIdle =>
      match r_calls r with
      | [] => None
      | CAdd n :: cs =>                                                    (* line 57 *)
        next (r_downs s) (r_lock s) (if has n (r_downs s) then TIdle else TAbsent n) cs (Some ORead)
      | CGet n :: cs =>                                                    (* 90-93; "" is the node itself *)
        next (r_downs s) (r_lock s) TIdle cs (if String.eqb n "" then None else Some ORead)
      | CDelete n :: cs =>                                                 (* line 110 *)
        match r_lock s with
        | None => next (r_downs s) (Some i) (TRemove n) cs (Some OLock)
        | Some _ => None
        end
      end
    | TAbsent n =>                                                         (* line 62 *)
      match r_lock s with
      | None => next (r_downs s) (Some i) (TAppend n) (r_calls r) (Some OLock)
      | Some _ => None
      end
    | TAppend n => next (r_downs s ++ [n]) (r_lock s) TRelease (r_calls r) (Some OWrite)   (* line 64 *)
    | TRemove n =>                                                         (* 111-122 *)
      if has n (r_downs s) then next (drop_first n (r_downs s)) (r_lock s) TRelease (r_calls r) (Some OWrite)
      else next (r_downs s) (r_lock s) TRelease (r_calls r) (Some ORead)
    | TRelease => next (r_downs s) None TIdle (r_calls r) (Some OUnlock)
    end
  end.

(* The events of a schedule, a list of goroutine numbers; the turn of a goroutine that cannot
   move is skipped. *)
Fixpoint rtrace (s : rstate) (sched : list nat) : list event :=
  match sched with
  | [] => []
  | i :: sched' =>
    match rstep s i with
    | Some (s', Some o) => (i, o) :: rtrace s' sched'
    | Some (s', None) => rtrace s' sched'
    | None => rtrace s sched'
    end
  end.
(* The node has the children ds, and each goroutine its calls. *)
Definition rstart (ds : list string) (progs : list (list tcall)) : rstate :=
  mkR ds None (map (mkRoutine TIdle) progs).
