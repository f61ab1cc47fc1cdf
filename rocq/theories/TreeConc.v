(* Interleaving models of the concurrent use of one node of utils/tree.go.

   Part 1: any number of goroutines calling AddNode on the same node.
   Part 2: one goroutine looking a child up while another deletes a child.

   Simplification common to both: memory is sequentially consistent and reading a
   slice header is one step.  Real Go gives no guarantee at all for such racing
   accesses, so a failure found here is a failure of the code, while the positive
   theorems hold for this memory model. *)

From Verif Require Import Base.

(* ---------------------------------------------------------- concurrent AddNode *)

(* Where a goroutine inside AddNode (utils/tree.go:56-68) is. *)
Inductive pc :=
| PStart                 (* before line 57, grep(self.Downs, name), outside the lock *)
| PWant                  (* grep returned nil; before line 62, self.mu.Lock() *)
| PHold                  (* holds the lock; before lines 63-64, append *)
| PAppended (c : nat)    (* before line 66, self.mu.Unlock() *)
| PDone (c : nat).       (* returned child c *)

(* One goroutine: the name it adds and its position. *)
Record thread := mkThread { tnm : string; tpc : pc }.

(* Shared state: the children (pointer and name, in slice order), the next fresh
   pointer, and which goroutine holds the mutex. *)
Record cstate := mkC {
  cdowns : list (nat * string);
  cnext : nat;
  clock : option nat;
  cthreads : list thread
}.

(* grep over the current slice (utils/tree.go:79-86).  Taken as one step: appends never
   change the elements below the length that the scan captured. *)
Definition cgrep (ds : list (nat * string)) (n : string) : option nat :=
  match find (fun d => if string_dec (snd d) n then true else false) ds with
  | Some d => Some (fst d)
  | None => None
  end.

Fixpoint upd_thread (i : nat) (p : pc) (ts : list thread) : list thread :=
  match ts, i with
  | [], _ => []
  | t :: ts', O => mkThread (tnm t) p :: ts'
  | t :: ts', S i' => t :: upd_thread i' p ts'
  end.

(* One step of goroutine i; None when it cannot move (finished, or lock taken). *)
Definition cstep (s : cstate) (i : nat) : option cstate :=
  match nth_error (cthreads s) i with
  | None => None
  | Some t =>
      match tpc t with
      | PStart =>
          match cgrep (cdowns s) (tnm t) with
          | Some c => Some (mkC (cdowns s) (cnext s) (clock s) (upd_thread i (PDone c) (cthreads s)))
          | None => Some (mkC (cdowns s) (cnext s) (clock s) (upd_thread i PWant (cthreads s)))
          end
      | PWant =>
          match clock s with
          | None => Some (mkC (cdowns s) (cnext s) (Some i) (upd_thread i PHold (cthreads s)))
          | Some _ => None
          end
      | PHold =>
          Some (mkC (cdowns s ++ [(cnext s, tnm t)]) (S (cnext s)) (clock s)
                    (upd_thread i (PAppended (cnext s)) (cthreads s)))
      | PAppended c =>
          Some (mkC (cdowns s) (cnext s) None (upd_thread i (PDone c) (cthreads s)))
      | PDone _ => None
      end
  end.

(* A schedule is a list of goroutine numbers; a blocked goroutine's turn is skipped. *)
Fixpoint crun (s : cstate) (sched : list nat) : cstate :=
  match sched with
  | [] => s
  | i :: sched' => crun (match cstep s i with Some s' => s' | None => s end) sched'
  end.

(* Start: the node already has children ds (distinct pointers below next), and one
   goroutine per name is about to call AddNode. *)
Definition cinit (ds : list (nat * string)) (next : nat) (names : list string) : cstate :=
  mkC ds next None (map (fun n => mkThread n PStart) names).

(* --------------------------------------------- lookup concurrent with a delete *)

(* The backing array of Downs, with the current slice length.  DeleteNode
   (utils/tree.go:109-123) holds the mutex, but grep (79-86) does not take it. *)
Inductive dpc :=
| DFind (j : nat)        (* scanning for the name, at index j (line 111) *)
| DShift (j : nat)       (* copying element j+1 down to j (line 116) *)
| DTrunc                 (* storing the shortened slice header (lines 114, 116) *)
| DDone.

Inductive rpc :=
| RScan (len : nat) (j : nat)   (* range over the captured slice, at index j *)
| RFound (c : nat)
| RMissed.

Record dstate := mkD {
  darr : list (nat * string);   (* backing array: pointer and name *)
  dlen : nat;                   (* length of self.Downs *)
  ddel : string; dpcD : dpc;    (* the deleter: name and position *)
  dtgt : string; dpcR : rpc     (* the reader: name and position *)
}.

Fixpoint set_at {A} (n : nat) (x : A) (l : list A) : list A :=
  match l, n with
  | [], _ => []
  | _ :: l', O => x :: l'
  | y :: l', S n' => y :: set_at n' x l'
  end.

Definition step_deleter (s : dstate) : dstate :=
  match dpcD s with
  | DFind j =>
      if j <? dlen s then
        match nth_error (darr s) j with
        | Some (_, n) =>
            if string_dec n (ddel s)
            then mkD (darr s) (dlen s) (ddel s) (if S j =? dlen s then DTrunc else DShift j) (dtgt s) (dpcR s)
            else mkD (darr s) (dlen s) (ddel s) (DFind (S j)) (dtgt s) (dpcR s)
        | None => s
        end
      else mkD (darr s) (dlen s) (ddel s) DDone (dtgt s) (dpcR s)
  | DShift j =>
      match nth_error (darr s) (S j) with
      | Some x => mkD (set_at j x (darr s)) (dlen s) (ddel s)
                      (if S (S j) =? dlen s then DTrunc else DShift (S j)) (dtgt s) (dpcR s)
      | None => s
      end
  | DTrunc => mkD (darr s) (dlen s - 1) (ddel s) DDone (dtgt s) (dpcR s)
  | DDone => s
  end.

Definition step_reader (s : dstate) : dstate :=
  match dpcR s with
  | RScan len j =>
      if j <? len then
        match nth_error (darr s) j with
        | Some (c, n) =>
            mkD (darr s) (dlen s) (ddel s) (dpcD s) (dtgt s)
                (if string_dec n (dtgt s) then RFound c else RScan len (S j))
        | None => s
        end
      else mkD (darr s) (dlen s) (ddel s) (dpcD s) (dtgt s) RMissed
  | _ => s
  end.

(* true: the deleter moves; false: the reader moves. *)
Fixpoint drun (s : dstate) (sched : list bool) : dstate :=
  match sched with
  | [] => s
  | b :: sched' => drun (if b then step_deleter s else step_reader s) sched'
  end.

(* The reader has captured the slice header before the deleter starts. *)
Definition dinit (ds : list (nat * string)) (del tgt : string) : dstate :=
  mkD ds (length ds) del (DFind 0) tgt (RScan (length ds) 0).
