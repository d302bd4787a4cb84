(** Model of several plain (single-threaded) lazy fields whose builders read each
    other: the accessor emitted by /repo/fieldx_derive/src/codegen/plain.rs:81-108
    around field_lazy_initializer (67-79), which calls get_or_init or get_or_try_init
    (20-27) of once_cell's unsync OnceCell (fieldx/src/lib.rs:490).

    once_cell is not in /repo; get_or_try_init is taken from its documentation: it
    returns the value if there is one; otherwise it runs the function, and stores the
    value it returns, panicking ("reentrant init") if the function has put one there
    in the meantime; an error is passed on and nothing is stored.

    Simplifications: values and errors are numbers; a panic is a result (the caller
    of the model may go on after it, as with catch_unwind); the references returned by
    accessors need no release, so GDrop does nothing.  A builder only has a shared
    reference to the object (README, "laziness protocol"), and the setter and the
    clearer of a lazy field need an exclusive one (plain.rs:241-263, 302-323), so
    builders can only read. *)
From Coq Require Import List Bool Arith.
From Verif Require Import ProxyTypes MultiSpec.
Import ListNotations.

Section Plain.
  Variable bld : fid -> prog.

  (** The cells of the object. *)
  Definition pcells := fid -> option nat.

  (** Updates one cell: bookkeeping, stands for no code. *)
  Definition pset (S : pcells) (f : fid) (v : nat) : pcells :=
    fun g => if Nat.eqb g f then Some v else S g.

  (** What the accessor returns: plain.rs:97-108.  With a fallible builder the error
      is returned (`?` is the [shortcut], line 99); an infallible builder has none, its
      accessor is [ORead]. *)
  Definition accessor_result (c : call) (o : outcome nat nat) : res nat nat :=
    match c, o with
    | _, BOk v => RGuard v
    | Proxy OTryRead, BErr e => RErr e
    | _, _ => RPanic
    end.

  (** Runs code.  [fuel] bounds the depth of nested builders; [None]: the depth was
      not enough, or the code uses something plain lazy fields do not have. *)
  Section Depth.
    (* get_or_init one level down *)
    Variable get : pcells -> fid -> option (pcells * outcome nat nat * list bevent).

    (** User code or a builder: plain.rs:78, the closure calls the builder method. *)
    Fixpoint pcode (S : pcells) (p : prog) : option (pcells * outcome nat nat * list bevent) :=
      match p with
      | PEnd o => Some (S, o, [])
      | PCall f c k =>
          match c with
          | Proxy (ORead | OTryRead) =>
              match get S f with
              | Some (S1, o, e1) =>
                  match pcode S1 (k (accessor_result c o)) with
                  | Some (S2, o2, e2) => Some (S2, o2, e1 ++ e2)
                  | None => None
                  end
              | None => None
              end
          | Proxy GDrop => pcode S (k RUnit)
          | _ => None
          end
      end.
  End Depth.

  (** OnceCell::get_or_try_init: see above. *)
  Fixpoint pget (fuel : nat) (S : pcells) (f : fid) : option (pcells * outcome nat nat * list bevent) :=
    match fuel with
    | 0 => None
    | Datatypes.S n =>
        match S f with
        | Some v => Some (S, BOk v, [])
        | None =>
            match pcode (pget n) S (bld f) with
            | Some (S1, BOk v, e) =>
                match S1 f with
                | None => Some (pset S1 f v, BOk v, BStart 0 f :: e ++ [BEnd 0 f (BOk v)])
                | Some _ => Some (S1, BPanic, BStart 0 f :: e ++ [BEnd 0 f (BOk v)])
                end
            | Some (S1, o, e) => Some (S1, o, BStart 0 f :: e ++ [BEnd 0 f o])
            | None => None
            end
        end
    end.

  (** A program of the owner of the object, run with nested builders up to
      [fuel]. *)
  Definition prun (fuel : nat) (S : pcells) (p : prog) := pcode (pget fuel) S p.
End Plain.
