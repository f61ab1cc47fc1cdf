(* Go types as package reflect shows them to det/ and dethcl/: a finite table of named
   types (so that recursive types are finite objects) and type expressions over it.
   Not a model of a function of the repository. *)

From Verif Require Import Base.

Definition tid := nat.

(* A reflect.Type.  Named types refer to the table; the others are unnamed (Name() = ""). *)
Inductive gtype : Type :=
| TNamed (n : tid)
| TPtr (t : gtype)
| TSlice (t : gtype)
| TArray (t : gtype)
| TMap (k t : gtype)
| TStruct (fs : list gfield)
| TIface (methods : list string)
| TBasic (kind : string)          (* bool, string, numbers, chan, func: no Elem is followed *)
with gfield : Type :=
| GField (fname : string) (anonymous : bool) (json_tag : string) (ftype : gtype).

Definition fname (f : gfield) := match f with GField n _ _ _ => n end.
Definition fanon (f : gfield) := match f with GField _ a _ _ => a end.
Definition ftag (f : gfield) := match f with GField _ _ t _ => t end.
Definition ftype (f : gfield) := match f with GField _ _ _ t => t end.

(* A named type: Type.PkgPath(), Type.Name() and the underlying type. *)
Record named := mkNamed { n_pkg : string; n_name : string; n_under : gtype }.
Definition env := list named.

(* The type whose Kind(), Elem() and fields reflect reports for t.  The underlying type
   of a named type is never itself named, so one step is enough; a dangling index, which
   cannot occur in Go, is a basic type. *)
Definition under (E : env) (t : gtype) : gtype :=
  match t with
  | TNamed n => match nth_error E n with
                | Some d => match n_under d with TNamed _ => TBasic "invalid" | u => u end
                | None => TBasic "invalid"
                end
  | _ => t
  end.

Lemma under_not_named : forall E t n, under E t <> TNamed n.
Proof.
  intros E t n. unfold under. destruct t; try discriminate.
  destruct (nth_error E n0) as [d|]; [|discriminate]. destruct (n_under d); discriminate.
Qed.
