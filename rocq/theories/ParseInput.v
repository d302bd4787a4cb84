(** What the macros are given besides tokens: the Cargo features and the attributes of a
    field.  Only data; the rest is in ParseModel.v and ParseSpec.v. *)
From Coq Require Import List.
From Verif Require Import TokenSpec.

(** The Cargo features seen by fieldx_derive/src/util/args.rs:89-102. *)
Record features := mk_features { ft_sync : bool; ft_async : bool; ft_serde : bool }.
(** The attributes of a field: [#[fieldx]], [#[fieldx(...)]], [#[fieldx = ...]];
    fieldx_derive/src/fields.rs:85-90. *)
Inductive fattr := FWord | FList (ts : list tok) | FValue (ts : list tok).
