# Formal model of fieldx 0.1.8 in Coq 8.16.1

Source under study: `/repo` (vrurg/fieldx), read as text.  Nothing in `/repo`
is built, run or changed.  Everything below is about a Gallina model of that
source; every model definition carries a comment citing the file and lines it
models and the simplifications made.

## Trusted base

* The Coq 8.16.1 kernel (and `vm_compute` where a `_refuted` theorem or an
  example is closed by computation).
* The correspondence between `/repo` and the model, argued only by the comments
  on the definitions.
* Axioms: none are meant to be used.  Every property theorem is followed by
  `Print Assumptions`; the expected output is `Closed under the global context`.
  The counts are in the table at the end of this file.

## Layout

`rocq/theories/<Area>Model.v` definitions only, `<Area>Spec.v` the independent
specification, `<Area>Proofs.v` lemmas, `<Area>Props.v` the property theorems
(one line proofs), their non-vacuity examples and `Print Assumptions`.

## Plan per property

| Property | Model | Method |
|---|---|---|
| C01-C08 | `SyncProxy`: FXProxySync/FXWrLockGuardSync as a step function over an unbounded set of activities; every atomic step of the source (lock acquisition, upgrade, recheck, builder start/end, value store, flag store, downgrade, release) is one action; builder outcomes (Ok/Err/panic) are chosen by the schedule | inductive invariant over all runs; C05 by forward simulation into an atomic cell |
| C09-C11 | `Multi`: several fields, threads with call stacks, builders as programs, parking_lot's lock with its writer bit | progress theorem by minimal-rank argument, termination by measure; C10/C11 as refutations/traps |
| C12-C14 | `AsyncProxy`: same with the tokio protocol and a cancel action at every await | same as above, same atomic cell |
| C15-C17 | `Cells`: the statements emitted by plain.rs and sync.rs over OnceCell, RefCell, Option, FXProxySync, FXRwLockSync | refinement by induction over call sequences |
| C18 | `Graph`, `PlainGraph`: builders as programs over other fields | values defined from the builders alone; invariant over schedules (sync), induction on rank (plain) |
| C19-C25 | `Builder`: builder object, setters, `build()` for a list of field configurations | induction over field lists and call sequences |
| C26-C27, C51 | `Rc`: heap with strong/weak counts, `new_cyclic`, `myself` | invariant over operation sequences |
| C28-C38, C46 | `Args`/`Ctx`/`Codegen`: argument records at both levels, resolution functions of fields.rs, args.rs, ctx/*.rs; emitted types and expressions with a small type checker | case analysis over all configurations, strings by induction |
| C39-C41, C48, C49 | `Serde`: shadow struct conversion, documents | induction over field lists |
| C42-C45, C50 | `Token`, `Generics`: token trees, attribute splitting, sort, identifiers, printed parameters | structural induction |
| C52-C58 | `Parse`: both attributes from tokens to argument records | inversion of the parser, writers and round trip, relations on token lists |
| C59-C64 | `Task`: many async fields and tasks, nested builders, drops, aborts, the runtime | ownership invariant over locks and queues, minimal-rank progress, well-founded termination, traps by invariants |
| C65 | `Story`, `TaskField`: one lazy field of `TaskModel.v` seen alone | forward simulation of `TaskModel.v` by `AsyncProxyModel.v`, guard by guard, then C14 |
| C66 | `Story`, `MultiField`: one lazy field of `MultiModel.v` seen alone | forward simulation of `MultiModel.v` by `SyncProxyModel.v` (a writer waiting for readers is still waiting there), then C05 |
| C67 | `RegisterSpec.v`: a register behind a reader-writer lock, seen from outside; `MultiStory.v` reads its story off the runs of `MultiModel.v` | invariant over story and state (`MultiRegister.v`): the value is the last one set, except while a set is about to return; the lock's ownership (`MultiOwn.v`) keeps others out; comparisons: the run is cut at the comparing step (`MultiCompare.v`) |
| C68 | same, over `TaskModel.v` (`TaskStory.v`) | same invariant with dropped futures (`TaskRegister.v`, `TaskCompare.v`) |
| C69 | `AttrModel.v`: every item of the expansion with the user's attributes on it; `AttrSpec.v`: the documented list for each item | case analysis; exact contents of the shadow's items; refutations |
| C70, C71 | `CopyModel.v`: the types checked to be Copy; typing of methods from `RustTyping.v` | case analysis over settings; hidden field of an rc struct as a skipped field |
| C72-C74 | `NameModel.v`: identifiers as proc_macro2 and quote make them; `MacroModel.v`: every step of the expansion with its unwraps, expects and errors, in order; `MacroSpec.v`: words, keywords, well-formed input, when to complain | induction over the list of steps; each step compared with the generators of C38; refutations |
| C75 | `GrammarSpec.v`: forms of arguments, one table per level, pairs that exclude each other, features; no parser | each `FromMeta` shown to accept exactly the forms of its table, induction over the tokens |
| C76 | `WeakSpec.v`: events equal but for the predicate's answer; who has heard from whom | invariant: an owner of the lock knows the last write of each place (and all accesses, if exclusive), so what it loads is what the strong model has; simulation in both directions; C05, C14; no two events of a run have the same number (`WeakFresh.v`) |
| C77 | `WrittenSpec.v`: votes over tokens, the first place that says anything decides; names from string literals; nothing of the parser or of the settings | each setting heeds the vote of its word (the parser is honest, C75); then by the definitions of the settings and C38_emitted_iff |
| C78 | `AutoSpec.v`: Send and Sync as coinductive predicates over types, what is written as in C77 | the two-step iteration of `AutoModel.v` is the greatest fixed point; the type of each field from C77_type; coinduction for the weak reference of an rc struct; case analysis over the emitted async methods |
| C79 | `SignSpec.v`: who may call a method and its signature, from the tokens | what each nested argument carries (SignProofs.v) turned into votes; the votes decide the settings; the signatures by cases over the settings (SignTypes.v) |
| C80, C81 | `MadeSpec.v`: Default, the constructor, what build() demands, and serde, from the tokens | votes as for C79; default(off, value) is the one form that does not count; lists of identifiers by distinctness |
| C82, C83 | `BehaveSpec.v`: the cell and the form of FieldSpec.v and BuilderSpec.v chosen by the words; programs call by name | facts of C79 give the settings of the cell; entries field by field; then C47, C17, C38 and C19 |
| C84 | `DocSpec.v`: the place of a field in documents from the tokens, what goes out and comes in | nested default argument from the tokens; places field by field; then C39, C40, C49 in their exact forms |
| C85 | `GuardCell.v`: cell with content, readers, writer and builder runs; effect of each call, when it waits | forward simulation from both container models (`SyncGuards.v`, `AsyncGuards.v`); runs of one activity alone (`SyncAlone.v`, `AsyncAlone.v`) |
| C86 | `ThreadSpec.v`: activities around the cell of `FieldSpec.v`; call, one instant, return | emitted bodies unfolded into calls on the container (`ThreadModel.v`, `ThreadScripts.v`), simulated by the cell with guards of C85 and that by the cell of `FieldSpec.v` (`ThreadSim.v`, `ThreadRun.v`, `ThreadProofs.v`, `ThreadWords.v`) |
| C87 | `ThreadSpec.v` as for C86 | emitted bodies unfolded into what they do with the lock (`LockedModel.v`, `LockedScripts.v`), simulated directly by the cell of `FieldSpec.v` (`LockedSim.v`, `LockedProofs.v`, `LockedWords.v`) |
| C88 | `ItemSpec.v`: texts that cannot be taken for generated names | all generated functions listed in order with their names (`ItemModel.v`), kinds of names told apart by their first letters (`ItemProofs.v`) |
| C89 | `ObjectSpec.v`: a record of the cells of `ThreadSpec.v`, one step in one cell at a time | the fields side by side, each run by the machine of C86, C87 or by the sequential semantics if it is neither lazy nor locked (`ObjectModel.v`); schedules are projected to the fields and the histories of the cells merged (`ObjectProofs.v`, `ObjectParts.v`, `ObjectRecord.v`, `ObjectWords.v`) |
| C90 | `HygieneSpec.v`: scopes from the inside to the outside (own bindings, parameters, items, globs, prelude) and what a name means there; `HygieneWhen.v`: which names are used, added and covered, told from the arguments | every bare name of the emitted code as a piece under its bindings (`HygieneModel.v`); each generator's pieces are those told by the arguments (`HygieneField.v`, `HygieneStruct.v`) and back (`HygieneConverse.v`) |
| C91 | `WeakObjectSpec.v`: the same seen but for what the predicate of a lazy field says; `ObjectSpec.v` | the machine of C89 with loads and stores of `WeakMem.v` in all fields (`WeakObjectModel.v`); each field is simulated by its strong self whatever more its activities know (`WeakObjectThreads.v`, `WeakObjectLock.v`, `WeakObjectParts.v`), so is the object (`WeakObjectProofs.v`); every strong step has a weak one (`WeakSyncCan.v`, `WeakAsyncCan.v`); no two writes to a place, nor two accesses, have the same number (`WeakObjectFresh.v`) |
| C92 | `EndSpec.v`: counting actions of a schedule; nobody in a call, no guard kept | each program point of the containers has a rank that every step lowers, each script a bound (`EndProofs.v`); summed over activities and fields, with C89_moves (`EndObject.v`); on weak memory by C91 (`EndWeak.v`) |
| C93 | `LifeSpec.v`: scenes, contents that go on from scene to scene; which contents the words ask for at the start | model of what a field stores after a shared scene (`LifeModel.v`); each storage is left as its cell (`LifeProofs.v`), histories of the fields merged up to chosen ends (`LifeRecord.v`), then by scenes; starts and ends by C82, C83, C84 (`LifeWords.v`) |
| C94 | `WeakLifeSpec.v`: the same scenes but for what predicates of lazy fields say while shared; `LifeSpec.v` | the lives of C93 with the shared scenes of C91, after which the owner joins the users and loads (`WeakLifeModel.v`); whoever joins all knows all writes and accesses (`WeakLifeProofs.v`), so finds what the strong self of the object stores and the life is one of C93 (`WeakLifeRecord.v`); starts and ends as in C93 (`WeakLifeWords.v`) |
| C95 | `FxhSpec.v`: options, groups, verdicts | model of the macro, of what it emits for any order of its map, and of running that (`FxhModel.v`); the map holds the members of each group by induction over the fields (`FxhProofs.v`); the four declarations against `ArgsModel.v` and `ParseModel.v` (`FxhProps.v`) |
| C96 | `SessionSpec.v`: programs over a record of cells with guards per cell | the simulation of C17 and C27 per field, kept for all fields at once by induction over the program; what is asked of one field filtered out of the program (`SessionProofs.v`) |
| C97 | `DupSpec.v`: copying, comparing and showing a record of cells with guards | per field by cases on its type, for any state that a session reaches (`stand` of `SessionProofs.v`); then by induction over the fields (`DupProofs.v`) |

Properties marked "Suspected false" in `properties.jsonl` get a
`..._refuted` theorem with a concrete witness plus, where possible, the
positive theorem under the precise extra hypothesis.

## What is modelled so far

| Source | Model | Parts |
|---|---|---|
| types of containers, bounds on the struct, what async functions hold at their awaits: `fieldx/src/sync/*.rs`, `fieldx/src/async/*.rs`; types of fields and async methods as emitted | `AutoModel.v` | Send and Sync of struct and futures; a type is reduced to what matters for the two traits, parking_lot's guards are left out (no future holds one) |
| the impl holding the methods: `codegen.rs:518-524` | `BehaveModel.v` | a call by name finds the method of the name; running it is `FieldRun.v` |
| what is derived and emitted for the struct and its shadow, the constructor: `codegen.rs:226-250`, `codegen/serde.rs:235-336` | `MadeModel.v` | whether each is emitted, its name and its visibility; bodies are in `StructGen.v` |
| memory orderings in `fieldx/src/sync/fxproxy.rs`, `fieldx/src/async/fxproxy.rs` | `WeakMem.v`, `WeakSyncModel.v`, `WeakAsyncModel.v` | the code of the two models below on release/acquire memory: lists of writes, what each activity knows, what the locks pass on |
| bodies of the methods of a lazy sync or async field, run in many threads: `codegen/sync.rs` | `ThreadModel.v` | a body becomes the calls it makes on its container one after the other; the containers are those of the next rows |
| the functions of the two impl blocks and the name a lazy field builds with: `codegen.rs:205-280`, `326-422`, `467-528`, `codegen_trait.rs:303-322`, `sync/impl_async.rs:12-55`, `sync/impl_sync.rs:25-34`, `serde.rs:190-220`, `473-524` | `ItemModel.v` | names only; a field whose generation fails adds nothing |
| all the fields of a shared object, and builders calling its methods: `sync.rs:179-647`, `plain.rs:40-61`, `sync/fxproxy.rs:18-42`, `138-163`, `async/fxproxy.rs:45-47`, `153-168` | `ObjectModel.v` | a builder ends, and its future is dropped, only after the calls it has made; several calls at a time only from async builders; the owner is alive during calls |
| bare names in the emitted code: `codegen.rs:205-529`, `plain.rs:40-476`, `sync.rs:53-694`, `codegen_trait.rs:232-524`, `serde.rs:159-441`, `impl_async.rs:36-55` | `HygieneModel.v` | methods are found by type; names starting with `::` are out of reach; attributes, error paths and serde default functions left out |
| all the fields of a shared object on weak memory: `sync/fxproxy.rs:67-276`, `async/fxproxy.rs:82-265`, `sync/fxlock.rs:8-60`, `async/fxlock.rs:8-60`, `sync.rs:179-690` | `WeakObjectModel.v` | memory as in `WeakMem.v`; order between the threads outside of the object is a `WTells` action, possible at any time |
| an object before, after and between shared scenes: `codegen_trait.rs:287-321`, `sync.rs:179-197`, `plain.rs:40-61`, `sync/fxproxy.rs:68-75`, `async/fxproxy.rs:84-94` | `LifeModel.v` | the owner uses one field in a scene and keeps no guard between scenes (`SessionModel.v` has sessions with many fields, C96_scenes turns them into scenes); builders call no methods of the object while the owner is alone |
| the same on weak memory: `codegen_trait.rs:287-321`, `sync.rs:179-690`, `sync/fxproxy.rs:67-276`, `async/fxproxy.rs:82-265`, `sync/fxlock.rs:8-60`, `async/fxlock.rs:8-60` | `WeakLifeModel.v` | the owner joins everybody who took part; memory begins anew with what it found when the object is shared again |
| bodies of the methods of a locked field, run in many threads: `codegen/sync.rs:63-111`, `212-370`, `456-647`; `fieldx/src/sync/fxlock.rs`, `fieldx/src/async/fxlock.rs` | `LockedModel.v` | a body becomes what it does with the lock; the lock is granted in any order the living guards allow; a future can be dropped only before it starts or while it waits for the lock, its only await |
| `fieldx/src/sync/fxproxy.rs` | `SyncProxyModel.v` | all operations of FXProxySync and FXWrLockGuardSync, one atomic step at a time |
| `fieldx/src/sync/fxproxy.rs`, `fieldx/src/sync/fxlock.rs`, many fields at once | `MultiModel.v` | the operations of lazy and locked sync fields for any number of fields and threads; builders are user programs on the same thread, with the guards they keep; lock acquisition in the phases parking_lot documents (writer bit, draining of readers, upgrade). That algorithm is an assumption, it is not in `/repo` |
| plain lazy accessors in `codegen/plain.rs` over several fields | `PlainGraphModel.v` | get_or_init / get_or_try_init with nested builders; once_cell's behaviour is an assumption, it is not in `/repo` |
| `fieldx/src/async/fxproxy.rs` | `AsyncProxyModel.v` | the same for FXProxyAsync, with a drop of the future at every await |
| `fieldx/src/async/fxproxy.rs`, `fieldx/src/async/fxlock.rs`, many fields at once | `TaskModel.v` | the operations of lazy and locked async fields for any number of fields and tasks; builders are user programs whose futures are nested in the call; drops of a call at any await (the task's own or one made by a running builder), aborts, blocking_read inside and outside a runtime; tokio's first-come queue from its documentation |
| `fieldx_aux/src/*.rs` argument types | `ArgsModel.v` | values after parsing, `is_true`, modes, serde flags, conversion from bool, validate_exclusives |
| `fieldx_derive/src/fields.rs`, `util/args.rs` | `ArgsModel.v` | every query method used by the generators, both argument groups, mark_implicitly |
| `util/args.rs` builder_attributes, `codegen.rs` and `codegen/serde.rs` where they emit attributes | `AttrModel.v` | which attributes of the user are on which item; the attributes the macro adds by itself are left out |
| `codegen.rs` prepare_field, copy validation, default_impl, struct_extras | `CopyModel.v` | the types checked to be Copy; whether Default is implemented and new() emitted |
| `codegen.rs` rewrite, and everything in the generators that makes a name, unwraps or fails | `NameModel.v`, `MacroModel.v` | the order of the steps, what each can panic with or complain about, which fields are collected in which list; Ident::new and format_ident! from their documentation; whether a string is a path and whether an expression is an assignment are parameters |
| `fieldx_derive/src/ctx/field.rs`, `ctx/codegen.rs`, `helper.rs` | `CtxModel.v` | every resolution method, names, visibility, attributes, hidden rc field, needs_default, needs_builder_struct |
| `fieldx_derive/src/codegen/codegen_trait.rs` | `CommonGen.v`, `StructGen.v` | field_default_value, field_builder, value_required, value_for_set, fallible helpers, which fields reach the builder |
| `fieldx_derive/src/codegen/plain.rs` | `PlainGen.v` | every generator function, as abstract syntax (`RustAst.v`) |
| `fieldx_derive/src/codegen/sync.rs`, `sync/impl_sync.rs`, `sync/impl_async.rs` | `SyncGen.v` | every generator function except the async builder wrapper |
| `fieldx_derive/src/codegen.rs`, `codegen/serde.rs` | `StructGen.v` | struct literals of Default, builder new() and build(), both shadow conversions, shadow fields; not the derive/attribute plumbing and generics |
| types of std, parking_lot, tokio, fieldx used by the emitted code | `RustTyping.v` | a type checker for the emitted fragment; trusted as far as C38 says "type-checks" |
| std Option/RefCell/mem, once_cell, parking_lot, tokio and the two FXProxy types as used by emitted methods | `RustSem.v` | an interpreter of the emitted fragment for one thread, one field; contract of the libraries trusted, FXProxy as the atomic cell of C05/C14 |
| a user of one field's methods: results, guards kept, peeked, assigned through, dropped | `FieldRun.v` | against `FieldSpec.v`, the optional cell with guards |
| `codegen.rs` builder_impl/builder_struct, `codegen_trait.rs` maybe_ref_counted_create, field_builder* | `BuilderModel.v` | the builder type at run time: setters, checks, literal, post_build, `?`, new_cyclic; against `BuilderSpec.v`, a form with entries.  The error value is only the field name; the hidden weak reference is left out |
| `codegen/serde.rs` at run time | `SerdeModel.v` | lazy initialisers, both conversions, Default of the shadow, default/rename/skip attributes and what serde's derive does with them; against `SerdeSpec.v`, documents as key/value lists.  Not: serde's formats, forwarded attributes, Clone (taken to keep the content), Option as the declared type |
| `codegen_trait.rs` fixup_self_type, `fieldx_aux/src/attributes.rs`, `ctx/codegen.rs` all_attrs and unique_ident_pfx | `TokenModel.v` | on proc_macro2 token trees without spans; syn's printing of generics and parsing of one attribute modelled, slice::sort_by as a stable insertion sort, the u32 counter as a number |
| `rc` in `codegen.rs`, `codegen/codegen_trait.rs`, lazy accessors | `RcModel.v` | new_cyclic construction with post_build, myself, myself_downgrade, lazy access through the self-reference, Drop, Default, Clone; Rc/Arc/Weak from std's documentation (an assumption); threads as interleavings of atomic count operations |
| generic parameters in `codegen.rs` and `codegen/serde.rs` | `GenericsModel.v` | every place where `#generics`, split_for_impl or generic_params is printed; where clauses left out |
| the macro that makes helper types: `fieldx_derive_support/src/lib.rs:35-254`, `base_helper.rs:20-22`, `accessor_helper.rs:28-39`, `setter_helper.rs:10-15`, `builder_helper.rs:13-56` | `FxhModel.v` | types without generic arguments; attributes but derive, visibilities, generics and spans left out; what rustc refuses as in `compiles` (an assumption) |
| one thread with all fields of an object: `codegen_trait.rs:287-321`, `sync.rs:179-459`, `plain.rs:40-330` | `SessionModel.v` | the borrow checker is not modelled (more programs than rustc accepts); builders call no methods of the object |
| Clone, PartialEq and Debug of the containers: `sync/fxproxy.rs:89-101,243-276`, `sync/fxlock.rs:23-80`, `async/fxlock.rs:33-88`, `async/fxproxy.rs:103-115,251-265` | `DupModel.v` | one thread; std's derives go field by field; the text around contents in Debug is left out |
| parsing of both attributes: `fieldx_aux/src/nesting_attr.rs`, every `FromMeta`/`from_list` of the argument types, receivers and `validate` in `fields.rs` and `util/args.rs` | `ParseInput.v`, `ParseModel.v` | from tokens to the records of `ArgsModel.v`; syn's Meta, Path, Ident and Lit and darling's NestedMeta, derived receivers, Flag, bool and PathList are written from their documentation (an assumption, they are not in `/repo`). Strings without escapes, error types without generic arguments, messages and spans dropped |

## What is not modelled

* Weak memory outside `WeakMem.v`: all models but `WeakSyncModel.v`,
  `WeakAsyncModel.v`, `WeakObjectModel.v` and `WeakLifeModel.v` are sequentially consistent (the source uses SeqCst except for
  one Release store made under the write lock).  C76 shows for one lazy field, C91 for
  a whole object that only predicates of lazy fields can tell the difference.
* parking_lot/tokio internals; their RwLocks are modelled by their documented
  contract.
* Rust's type system beyond the small checker for emitted fragments; lifetimes are
  not modelled, of the traits only Copy (C70), Send and Sync (C78), generics only as printed text (C42, C50).
* Span/diagnostic handling of the macros; syn and darling beyond what `ParseModel.v`
  says about them.

## `Print Assumptions` per theorem

Every theorem of a `*Props.v` file is followed by `Print Assumptions`.  All of them
print `Closed under the global context`, that is, no axiom is used:

<!-- assumptions:begin -->
| File | Theorems printed | "Closed under the global context" |
|---|---|---|
| `ArgsProps.v` | 35 | 35 |
| `AsyncLockProps.v` | 4 | 4 |
| `AsyncProxyProps.v` | 20 | 20 |
| `AttrProps.v` | 10 | 10 |
| `AutoProps.v` | 6 | 6 |
| `BehaveProps.v` | 7 | 7 |
| `BuilderProps.v` | 22 | 22 |
| `CodegenProps.v` | 68 | 68 |
| `CopyProps.v` | 8 | 8 |
| `DocProps.v` | 4 | 4 |
| `DupProps.v` | 7 | 7 |
| `EndProps.v` | 7 | 7 |
| `FieldProps.v` | 11 | 11 |
| `FxhProps.v` | 13 | 13 |
| `GenericsProps.v` | 7 | 7 |
| `GrammarProps.v` | 4 | 4 |
| `GraphProps.v` | 14 | 14 |
| `GuardProps.v` | 6 | 6 |
| `HygieneProps.v` | 9 | 9 |
| `ItemProps.v` | 6 | 6 |
| `LifeProps.v` | 7 | 7 |
| `LockProps.v` | 4 | 4 |
| `LockedProps.v` | 3 | 3 |
| `MacroProps.v` | 16 | 16 |
| `MadeProps.v` | 10 | 10 |
| `MultiProps.v` | 12 | 12 |
| `ObjectProps.v` | 5 | 5 |
| `ParseProps.v` | 24 | 24 |
| `RcProps.v` | 17 | 17 |
| `SerdeProps.v` | 15 | 15 |
| `SessionProps.v` | 4 | 4 |
| `SignProps.v` | 4 | 4 |
| `StoryProps.v` | 8 | 8 |
| `SyncProxyProps.v` | 21 | 21 |
| `SyncStoryProps.v` | 8 | 8 |
| `TaskProps.v` | 27 | 27 |
| `ThreadProps.v` | 3 | 3 |
| `TokenProps.v` | 20 | 20 |
| `WeakAsyncProps.v` | 7 | 7 |
| `WeakLifeProps.v` | 8 | 8 |
| `WeakObjectProps.v` | 7 | 7 |
| `WeakSyncProps.v` | 7 | 7 |
| `WrittenProps.v` | 8 | 8 |
<!-- assumptions:end -->
