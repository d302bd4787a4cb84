{"id": "C01", "title": "Sync lazy field: a builder success is never wasted or duplicated", "statement": "When threads read, lazily initialise, mutably read, write, clear, clone and test a sync lazy field concurrently, two successful builder completions for the same field are always separated by a completed emptying (clear through the field or through a write guard) of that field; in particular with no clears the builder succeeds at most once.", "quantifier": "every number of threads, every mix of operations, every interleaving of their atomic steps, every builder outcome sequence", "why_tests_cant": "races need particular interleavings of lock acquisition and rechecks; a test samples a handful of schedules", "anchors": ["fieldx/src/sync/fxproxy.rs:FXProxySync::read_or_init", "fieldx/src/sync/fxproxy.rs:FXProxySync::clear", "fieldx/src/sync/fxproxy.rs:FXWrLockGuardSync::clear"]}
{"id": "C02", "title": "Sync lazy field: a read guard always points at a value", "statement": "A read or get_mut of a sync lazy field that returns a guard always has a value behind it, at the moment the guard is handed out and for as long as it is held; the internal unwraps of the guard mapping never panic.", "quantifier": "every interleaving, every set of concurrent readers, writers and clearers", "why_tests_cant": "an unwrap panic needs a clear to slip between initialisation and the downgrade of the lock; absence of such a schedule is not observable by running some", "anchors": ["fieldx/src/sync/fxproxy.rs:FXProxySync::read", "fieldx/src/sync/fxproxy.rs:FXProxySync::read_mut", "fieldx/src/sync/fxproxy.rs:FXProxySync::try_read", "fieldx/src/sync/fxproxy.rs:FXProxySync::try_read_mut"]}
{"id": "C03", "title": "Sync lazy field: guard stability and mutual exclusion", "statement": "While anybody holds a read guard of a field the value does not change; while anybody holds a mutable or write guard nobody else holds any guard of that field and nobody's builder for that field is running.", "quantifier": "every interleaving and every pattern of holding and dropping guards", "why_tests_cant": "data-race style properties depend on the schedule", "anchors": ["fieldx/src/sync/fxproxy.rs:FXProxySync", "fieldx/src/sync/fxproxy.rs:FXWrLockGuardSync"]}
{"id": "C04", "title": "Sync lazy field: predicate agrees with presence at rest", "statement": "Whenever no thread holds the field exclusively (write guard, mutable guard, running initialisation or clear), the lock-free predicate answers true exactly when the field holds a value.", "quantifier": "every reachable state of every concurrent execution", "why_tests_cant": "the flag and the value are two separate memory cells written one after the other; only a proof over all interleavings shows that they are in step at rest", "anchors": ["fieldx/src/sync/fxproxy.rs:FXProxySync::is_set", "fieldx/src/sync/fxproxy.rs:FXProxySync::clear_with_lock", "fieldx/src/sync/fxproxy.rs:FXWrLockGuardSync::store", "fieldx_derive/src/codegen/sync.rs:field_predicate"]}
{"id": "C05", "title": "Sync lazy field: linearizable as an atomic optional cell", "statement": "Every concurrent history of read, get_mut, write-guard, store, clear, predicate and drop operations on one sync lazy field is a history of an atomic 'option cell with a builder': each operation takes effect at one instant between its call and its return and returns what the sequential cell would.", "quantifier": "every finite concurrent history, every number of threads, every interleaving, every builder outcome", "why_tests_cant": "linearizability quantifies over all schedules; tests check a few histories", "anchors": ["fieldx/src/sync/fxproxy.rs:FXProxySync", "fieldx/src/sync/fxproxy.rs:FXWrLockGuardSync"]}
{"id": "C06", "title": "Sync lazy field: a failing or panicking builder leaves nothing behind", "statement": "If the builder returns Err or unwinds, the field is still unset, its predicate is false, its lock is released, nobody else's value is disturbed, the caller receives exactly that error, and the next read calls the builder again.", "quantifier": "every point at which the builder may fail, every interleaving with other threads", "why_tests_cant": "crash points inside critical sections cannot all be hit by tests", "anchors": ["fieldx/src/sync/fxproxy.rs:FXProxySync::read_or_init", "fieldx/src/sync/fxproxy.rs:FXProxySync::try_read", "fieldx/src/sync/fxproxy.rs:FXProxySync::lazy_init"]}
{"id": "C07", "title": "Sync lazy field: clear returns the current value and re-arms laziness", "statement": "clear (and the guard's clear) returns the value present at that instant (None if there was none), leaves the field empty, and the first later read that finds it empty calls the builder; clear and the write guard themselves never call the builder.", "quantifier": "every history and schedule", "why_tests_cant": "history dependent; a unit test fixes one history", "anchors": ["fieldx/src/sync/fxproxy.rs:FXProxySync::clear", "fieldx/src/sync/fxproxy.rs:FXProxySync::write", "fieldx/src/sync/fxproxy.rs:FXWrLockGuardSync::clear", "fieldx/src/sync/fxproxy.rs:FXWrLockGuardSync::store"]}
{"id": "C08", "title": "Sync lazy field: cloning takes a consistent snapshot", "statement": "A clone taken concurrently with anything else has its flag in agreement with its value, its value is one the original held at an instant during the clone call, and it keeps the original's builder.", "quantifier": "every interleaving of a clone with other operations", "why_tests_cant": "a torn snapshot would only show up in rare schedules", "anchors": ["fieldx/src/sync/fxproxy.rs:Clone for FXProxySync"]}
{"id": "C09", "title": "Sync lazy fields: acyclic builder dependencies cannot deadlock", "statement": "If every builder only touches fields lower in some ranking of the fields, and user threads hold no guard while calling into another field, then no reachable state of any number of threads is stuck: some unfinished thread can always make a step, and every operation finishes after finitely many steps.", "quantifier": "every number of threads and fields, every acyclic dependency structure, every schedule", "why_tests_cant": "deadlock freedom is a property of all schedules", "anchors": ["fieldx/src/sync/fxproxy.rs:FXProxySync::read_or_init", "fieldx/src/sync/fxproxy.rs:FXProxySync::clear", "fieldx_derive/src/codegen/sync.rs:field_reader_method"]}
{"id": "C10", "title": "Sync lazy fields: a self-dependent builder blocks for ever", "statement": "A builder that reads its own field (directly or through another field's builder) never completes: the thread waits on a lock held by itself, so the field's read never returns. (Negative counterpart of the previous property, it shows that the ranking hypothesis is needed.)", "quantifier": "every schedule once the cyclic read has started", "why_tests_cant": "a hang cannot be distinguished from slowness by a test", "anchors": ["fieldx/src/sync/fxproxy.rs:FXProxySync::read_or_init"]}
{"id": "C11", "title": "Comparing a sync field with itself while a writer waits", "statement": "Comparing two sync fields takes a read lock on each and never blocks for ever by itself. Suspected false for comparing a value with itself (a == a): with a task-fair RwLock a writer queued between the two read acquisitions deadlocks the comparison.", "quantifier": "every schedule of one comparison and one writer", "why_tests_cant": "needs a writer to arrive in a window of a few nanoseconds", "anchors": ["fieldx/src/sync/fxproxy.rs:PartialEq for FXProxySync", "fieldx/src/sync/fxlock.rs:PartialEq for FXRwLockSync"]}
{"id": "C12", "title": "Async lazy field: at most one success per emptying, with cancellation", "statement": "For an async lazy field, even if any of the futures is dropped at any of its await points, two successful builder completions whose value was installed are separated by an emptying, and a value once installed is never lost except by clear/store.", "quantifier": "every interleaving of tasks and every choice of cancellation points", "why_tests_cant": "cancellation points multiply the schedules", "anchors": ["fieldx/src/async/fxproxy.rs:FXProxyAsync::read_or_init"]}
{"id": "C13", "title": "Async lazy field: cancellation and builder failure are harmless", "statement": "Dropping a future at any await point, or a builder that returns Err, leaves the flag and value in agreement, releases the lock and leaves an unset field unset; later reads run the builder anew.", "quantifier": "every cancellation point, every schedule", "why_tests_cant": "crash points inside async critical sections", "anchors": ["fieldx/src/async/fxproxy.rs:FXProxyAsync::read_or_init", "fieldx/src/async/fxproxy.rs:FXProxyAsync::try_read", "fieldx/src/async/fxproxy.rs:FXProxyAsync::try_read_mut"]}
{"id": "C14", "title": "Async lazy field: linearizable as the same atomic optional cell as the sync one", "statement": "Every history of the async field is a history of the same atomic option-cell specification that the sync field satisfies, so switching the mode does not change the observable semantics of an infallible or fallible lazy field.", "quantifier": "every finite history, every interleaving, every cancellation", "why_tests_cant": "equivalence of two implementations over all histories", "anchors": ["fieldx/src/async/fxproxy.rs:FXProxyAsync", "fieldx/src/sync/fxproxy.rs:FXProxySync"]}
{"id": "C15", "title": "Plain lazy field refines an optional cell with a builder", "statement": "For a plain lazy field the generated accessor, mutable accessor, setter, clearer and predicate behave as on an abstract optional value: read builds at most once while unset and keeps the result, set returns the previous value if any, clear returns and removes it, predicate tells presence, and a failing builder leaves it unset.", "quantifier": "every finite sequence of generated-method calls, every builder behaviour, every initial default", "why_tests_cant": "unbounded call histories", "anchors": ["fieldx_derive/src/codegen/plain.rs:field_accessor", "fieldx_derive/src/codegen/plain.rs:field_setter", "fieldx_derive/src/codegen/plain.rs:field_clearer", "fieldx_derive/src/codegen/plain.rs:field_predicate"]}
{"id": "C16", "title": "Sync and plain generated methods implement the same optional cell", "statement": "Used from a single thread (no guard kept across calls), the methods generated for a sync lazy, sync optional locked, plain optional and plain inner-mutable optional field return the same results as the ones generated for a plain lazy/optional field for the same call sequence.", "quantifier": "every call sequence, every value, every builder behaviour", "why_tests_cant": "equivalence over all histories", "anchors": ["fieldx_derive/src/codegen/sync.rs", "fieldx_derive/src/codegen/plain.rs", "fieldx/src/sync/fxproxy.rs"]}
{"id": "C17", "title": "Inner-mutable plain field: borrow panics happen exactly on conflicting guards", "statement": "A call on an inner_mut plain field panics exactly when a guard handed out earlier conflicts with it (a live mutable guard for reads, any live guard for writes); a panic changes neither the value nor the set of live guards.", "quantifier": "every sequence of calls, guard acquisitions and drops", "why_tests_cant": "history dependent", "anchors": ["fieldx_derive/src/codegen/plain.rs:field_accessor", "fieldx_derive/src/codegen/plain.rs:field_accessor_mut", "fieldx_derive/src/codegen/plain.rs:field_setter", "fieldx_derive/src/codegen/plain.rs:field_clearer", "fieldx_derive/src/codegen/plain.rs:field_predicate"]}
{"id": "C18", "title": "Order of lazy reads does not matter", "statement": "With builders that are functions of other lazy fields and acyclic dependencies, the value of every lazy field after any sequence of reads is determined by the builders alone, not by the order in which fields are first read, and each builder runs at most once over the whole sequence.", "quantifier": "every acyclic set of builders, every order and repetition of reads", "why_tests_cant": "factorially many read orders and unboundedly many dependency graphs", "anchors": ["README.md: laziness protocol", "fieldx_derive/src/codegen/plain.rs:field_lazy_initializer", "fieldx/src/sync/fxproxy.rs:FXProxySync::read_or_init"]}
{"id": "C19", "title": "Builder: success exactly when every required field was set", "statement": "build() succeeds exactly when every field that must be set was set; otherwise it returns the uninitialized-field error naming the first such field in declaration order.", "quantifier": "every struct shape (any number of fields, any per-field builder/optional/lazy/default/required configuration) and every sequence of setter calls", "why_tests_cant": "2^n combinations of fields and configurations", "anchors": ["fieldx_derive/src/codegen.rs:builder_impl", "fieldx_derive/src/codegen/codegen_trait.rs:field_builder_value_required", "fieldx_derive/src/codegen/codegen_trait.rs:field_builder_value_for_set"]}
{"id": "C20", "title": "Builder: a failed build consumes nothing", "statement": "If build() returns the uninitialized-field error the builder still holds every value given so far: setting the missing field afterwards and building again yields the same object as setting it beforehand.", "quantifier": "every configuration and setter history", "why_tests_cant": "all histories", "anchors": ["fieldx_derive/src/codegen.rs:builder_impl"]}
{"id": "C21", "title": "Builder: last setter wins and fields do not interfere", "statement": "After any sequence of setter calls a successful build produces an object where each field holds the last value given for it, or, if none was given, its default (explicit default, empty optional, unbuilt lazy); calls for other fields have no influence and calls for different fields commute.", "quantifier": "every configuration, every order and repetition of setter calls", "why_tests_cant": "all histories", "anchors": ["fieldx_derive/src/codegen/codegen_trait.rs:field_builder", "fieldx_derive/src/codegen/plain.rs:field_builder_setter", "fieldx_derive/src/codegen/sync.rs:field_builder_setter"]}
{"id": "C22", "title": "Builder: build() never panics", "statement": "build() never panics, whatever was or was not set: every unwrap in it is guarded by a required-field check. Suspected false for builder(off, \"name\"), which still generates the setter but not the check.", "quantifier": "every accepted configuration and every setter history", "why_tests_cant": "all configurations", "anchors": ["fieldx_derive/src/ctx/field.rs:forced_builder", "fieldx_derive/src/codegen/codegen_trait.rs:field_builder_value_required", "fieldx_derive/src/codegen/codegen_trait.rs:field_builder_value_for_set"]}
{"id": "C23", "title": "Builder: some setter sequence makes it succeed", "statement": "For every struct with a builder there is a sequence of generated setters after which build() succeeds, i.e. a required field always has a setter. Suspected false for struct-level builder(required) with a field-level builder(off).", "quantifier": "every accepted configuration", "why_tests_cant": "existential over histories inside a universal over configurations", "anchors": ["fieldx_derive/src/ctx/field.rs:is_builder_required", "fieldx_derive/src/codegen/codegen_trait.rs:field_builder_value_required", "fieldx_derive/src/codegen/codegen_trait.rs:field_builder"]}
{"id": "C24", "title": "Builder: reuse after a successful build", "statement": "build() drains the builder: after a success, an immediate second build() fails on the first field that must be set, if there is one, and otherwise yields an object with only default values; no value is ever delivered twice.", "quantifier": "every configuration and setter history", "why_tests_cant": "all histories", "anchors": ["fieldx_derive/src/codegen/codegen_trait.rs:field_builder_value_for_set", "fieldx_derive/src/codegen/plain.rs:field_builder_setter", "fieldx_derive/src/codegen/sync.rs:field_builder_setter"]}
{"id": "C25", "title": "Builder: post_build runs exactly once, after all fields are set, only on success of the checks", "statement": "post_build is called exactly once per successful check phase, receives the object with all fields set, its result (or error) is what build() returns, and it is not called when a required field is missing.", "quantifier": "every configuration, setter history and post_build behaviour", "why_tests_cant": "all histories", "anchors": ["fieldx_derive/src/codegen/codegen_trait.rs:maybe_ref_counted_create", "fieldx_derive/src/codegen.rs:builder_impl"]}
{"id": "C26", "title": "Reference-counted structs: myself is the object itself", "statement": "For a struct with rc, as long as somebody owns the object obtained from new() or build(), myself() returns another owner of that same object and raises the strong count by one; dropping all owners frees it exactly once; the internal weak reference neither keeps it alive nor is ever upgraded after it is gone.", "quantifier": "every sequence of clone/drop/downgrade/myself operations on any number of objects", "why_tests_cant": "unbounded histories of ownership", "anchors": ["fieldx_derive/src/codegen.rs:myself_methods", "fieldx_derive/src/codegen.rs:prepare_ref_counted", "fieldx_derive/src/codegen/codegen_trait.rs:maybe_ref_counted_create"]}
{"id": "C27", "title": "Reference-counted structs: lazy access always finds its owner", "statement": "Reading a lazy field of an rc struct never fails for want of an owning reference. Suspected false while the object is under construction (post_build), while it is being dropped, and for a value made with Default::default() or Clone.", "quantifier": "every point of the life of the object", "why_tests_cant": "depends on the phase of the object's life cycle", "anchors": ["fieldx_derive/src/codegen/codegen_trait.rs:maybe_ref_counted_self", "fieldx_derive/src/codegen/codegen_trait.rs:maybe_ref_counted_create", "fieldx_derive/src/codegen.rs:default_impl"]}
{"id": "C28", "title": "Field-level arguments win over struct-level ones, which win over implied defaults", "statement": "For each yes/no feature of a field (lazy, get, get_mut, set, reader, writer, clearer, predicate, optional, lock, inner_mut, builder, into, required, copy, clone, serde, fallible) the effective value is the field's own argument if given (on or off), else the struct's, else the documented implication.", "quantifier": "every combination of presence/on/off at both levels for all arguments at once", "why_tests_cant": "3^n combinations", "anchors": ["fieldx_derive/src/ctx/field.rs", "fieldx_derive/src/fields.rs", "fieldx_derive/src/util/args.rs"]}
{"id": "C29", "title": "skip leaves a field alone", "statement": "A field with skip keeps its declared type, gets no methods, no builder setter and no serialisation, whatever the other arguments of the field and of the struct are; only its default is respected. Suspected false for inner_mut and for struct-level lock/reader/writer.", "quantifier": "every combination of field- and struct-level arguments", "why_tests_cant": "combinatorial", "anchors": ["fieldx_derive/src/fields.rs:unless_skip", "fieldx_derive/src/codegen/plain.rs:type_tokens", "fieldx_derive/src/codegen/sync.rs:field_value_wrap", "fieldx_derive/src/ctx/field.rs:is_inner_mut"]}
{"id": "C30", "title": "Explicit off disables a feature", "statement": "Giving off to a helper argument disables that helper for the field whatever the struct level says. Suspected false for copy(off)/clone(off) on plain fields, default(off), and builder(off, \"name\").", "quantifier": "every combination", "why_tests_cant": "combinatorial", "anchors": ["fieldx_derive/src/ctx/field.rs:accessor_mode", "fieldx_aux/src/default_arg.rs", "fieldx_derive/src/ctx/field.rs:forced_builder"]}
{"id": "C31", "title": "Accessor flavour is the same for plain and sync", "statement": "Whether an accessor returns a reference/guard, a clone or a copy depends only on the arguments, not on plain versus sync mode; copy and clone are never both selected.", "quantifier": "every combination of get(copy|clone|as_ref), copy, clone at both levels", "why_tests_cant": "combinatorial", "anchors": ["fieldx_derive/src/ctx/field.rs:accessor_mode", "fieldx_derive/src/ctx/field.rs:is_copy", "fieldx_derive/src/ctx/field.rs:is_clone"]}
{"id": "C32", "title": "Visibility of generated methods follows the documented precedence", "statement": "The visibility of a generated method is that of the field's helper argument, else of the field, else of the struct's helper argument, else of the struct's arguments, else of the struct. Suspected false for the sync get_mut, which uses the one of get.", "quantifier": "every combination of visibility arguments", "why_tests_cant": "combinatorial", "anchors": ["fieldx_derive/src/ctx/field.rs:vis_tok", "fieldx_derive/src/codegen/sync.rs:field_accessor_mut"]}
{"id": "C33", "title": "Mutually exclusive arguments are rejected, compatible ones are accepted", "statement": "Argument validation fails exactly when two arguments from different alternatives of an exclusive group are both enabled; off arguments never conflict; the number of reported conflicts depends only on the set of enabled arguments.", "quantifier": "every combination of arguments", "why_tests_cant": "combinatorial", "anchors": ["fieldx_aux/src/util.rs:validate_exclusives", "fieldx_derive/src/fields.rs:validate", "fieldx_derive/src/util/args.rs"]}
{"id": "C34", "title": "Concurrency mode resolution", "statement": "A field is sync/async/plain by its own mode argument if any, else by the struct's, and the forms sync / mode(sync), async / mode(async), and the struct/field levels mean the same thing. Suspected false for field-level mode(async).", "quantifier": "every combination of mode arguments", "why_tests_cant": "combinatorial", "anchors": ["fieldx_derive/src/fields.rs:is_sync", "fieldx_derive/src/util/args.rs:is_sync", "fieldx_derive/src/ctx/field.rs:is_sync", "fieldx_derive/src/ctx/codegen.rs:is_rather_sync"]}
{"id": "C35", "title": "A struct with a sync field is rather sync", "statement": "A struct without an explicit mode is treated as sync (thread-safe reference counter) exactly when some field asks for sync, irrespective of field order. Suspected false: the first field with any opinion decides.", "quantifier": "every list of fields", "why_tests_cant": "all lists of fields and orders", "anchors": ["fieldx_derive/src/ctx/codegen.rs:is_rather_sync"]}
{"id": "C36", "title": "Bare #[fieldx] means lazy with clearer and predicate", "statement": "An empty #[fieldx] attribute on a field turns laziness, clearer and predicate on; converting a boolean into a helper argument and back is the identity. Suspected false (inverted).", "quantifier": "every boolean, every helper kind", "why_tests_cant": "the conversion is exercised by tests only where both polarities compile", "anchors": ["fieldx_aux/src/base_helper.rs:From<bool>", "fieldx_derive/src/fields.rs:mark_implicitly"]}
{"id": "C37", "title": "Generated method names do not clash", "statement": "For one field all generated method names are pairwise distinct with default naming, for one kind of helper distinct fields get distinct names, and an explicit name is used verbatim.", "quantifier": "every field name, prefix, suffix string", "why_tests_cant": "all strings", "anchors": ["fieldx_derive/src/codegen/codegen_trait.rs:helper_name", "fieldx_derive/src/helper.rs:default_prefix"]}
{"id": "C38", "title": "Generated field type and generated values agree", "statement": "For every accepted configuration the default value, the builder's value and the deserialised value generated for a field have the generated type of the field, and the bodies of accessor, mutable accessor, setter, clearer, predicate, reader and writer type-check against their generated signatures.", "quantifier": "every combination of struct- and field-level arguments", "why_tests_cant": "combinatorial; each test compiles one configuration", "anchors": ["fieldx_derive/src/codegen/plain.rs", "fieldx_derive/src/codegen/sync.rs", "fieldx_derive/src/codegen/codegen_trait.rs"]}
{"id": "C39", "title": "Serde round trip", "statement": "Deserialising what was serialised gives back, for every serialisable and deserialisable field, the same value (lazy: the built value; optional: the same presence and value), and the defaults for the others. Suspected false for a cleared plain optional field with a default.", "quantifier": "every struct shape, every field state", "why_tests_cant": "all shapes and states", "anchors": ["fieldx_derive/src/codegen/serde.rs:serde_struct_from_shadow", "fieldx_derive/src/codegen/serde.rs:serde_struct_into_shadow", "fieldx_derive/src/codegen/plain.rs:field_from_shadow", "fieldx_derive/src/codegen/sync.rs:field_from_shadow"]}
{"id": "C40", "title": "Serialisation initialises lazy fields", "statement": "Serialising a struct writes the built value for every serialisable lazy field that was unset, exactly once per builder; plain, sync and async behave alike. Suspected false for async and for failing builders.", "quantifier": "every struct shape and field state, every builder", "why_tests_cant": "all shapes", "anchors": ["fieldx_derive/src/codegen/serde.rs:serde_struct_into_shadow", "fieldx_derive/src/codegen/sync.rs:field_lazy_initializer", "fieldx_derive/src/codegen/plain.rs:field_lazy_initializer"]}
{"id": "C41", "title": "Serde field selection", "statement": "The serialised form mentions a field exactly when serde is on for the struct and neither serde(off) nor serialize off applies to the field; likewise for deserialisation; serde is on for a field exactly when at least one of the two directions is.", "quantifier": "every combination of serde arguments at both levels", "why_tests_cant": "combinatorial", "anchors": ["fieldx_aux/src/serde_helper.rs", "fieldx_derive/src/codegen/serde.rs", "fieldx_derive/src/ctx/field.rs:is_serde"]}
{"id": "C42", "title": "Self in default expressions denotes the struct", "statement": "Wherever a default expression is emitted inside the builder's implementation every occurrence of Self, at any nesting depth, is replaced by the struct's type and nothing else changes. Suspected false for sync locked fields.", "quantifier": "every token tree", "why_tests_cant": "unbounded nesting", "anchors": ["fieldx_derive/src/codegen/codegen_trait.rs:fixup_self_type", "fieldx_derive/src/codegen/sync.rs:field_default_wrap", "fieldx_derive/src/codegen/plain.rs:field_default_wrap"]}
{"id": "C43", "title": "Attribute lists are split at commas", "statement": "attributes(a, b, c) yields exactly the attributes between the commas, in order, with an optional trailing comma. Suspected false for attributes with any other top-level punctuation such as a path a::b or name = value.", "quantifier": "every token list", "why_tests_cant": "unbounded lists", "anchors": ["fieldx_aux/src/attributes.rs:from_meta"]}
{"id": "C44", "title": "Attributes keep their order with derives first", "statement": "The attributes put on the generated struct are a permutation of the given ones with all derive attributes first and the relative order within each class unchanged.", "quantifier": "every list of attributes", "why_tests_cant": "unbounded lists", "anchors": ["fieldx_derive/src/ctx/codegen.rs:all_attrs"]}
{"id": "C45", "title": "Internal identifiers are unique", "statement": "Identifiers made for internal use never repeat, whatever prefixes are asked for and in whatever order.", "quantifier": "every sequence of prefixes", "why_tests_cant": "unbounded sequences of strings", "anchors": ["fieldx_derive/src/ctx/codegen.rs:unique_ident_pfx"]}
{"id": "C46", "title": "When Default is generated", "statement": "An implementation of Default is generated exactly when the documentation says so: default is asked for, or it is not disabled and new is generated, or some field has a default, or the struct is sync and has a lazy field. Suspected false for struct-level lazy.", "quantifier": "every combination of arguments and every list of fields", "why_tests_cant": "combinatorial", "anchors": ["fieldx_derive/src/ctx/codegen.rs:needs_default", "fieldx_derive/src/util/args.rs:needs_default", "README.md"]}
{"id": "C47", "title": "Guards kept by one thread exclude exactly what they should", "statement": "When one thread or task keeps guards of a field (from the getter, reader, mutable accessor or writer) across further calls on that field, a further call waits for ever exactly when a kept write guard, or any kept guard and a need for exclusive access, stands in its way; in particular any number of read guards may be held together. Suspected false for async lazy fields, where a read takes the write lock even if the value is there.", "quantifier": "All configurations, all sequences of calls with guards kept, used for reading and assignment and dropped in any order, all builder outcomes", "why_tests_cant": "The histories of guards are unbounded and a deadlock of a thread with itself shows up in a test only as a hang", "anchors": ["fieldx/src/sync/fxproxy.rs:138-217", "fieldx/src/async/fxproxy.rs:153-225", "fieldx_derive/src/codegen/sync.rs"]}
{"id": "C48", "title": "Names of fields in serialised form", "statement": "The keys of the serialised form are the documented names of the serialisable fields, in declaration order: the name given to serde for the field, else its alternative name, else its identifier. Suspected false for a name given to serde.", "quantifier": "every struct shape and state", "why_tests_cant": "all shapes", "anchors": ["fieldx_derive/src/codegen/serde.rs:serde_field_attribute", "fieldx_derive/src/lib.rs:529-532", "fieldx_derive/src/lib.rs:565"]}
{"id": "C49", "title": "Reading documents with missing or null keys", "statement": "A field that is read takes the value under its key; if the key is missing it takes the default given to serde for the field, else the one of the struct, else it is empty if it may be, else the document is refused; null empties a field that may be empty and is refused for any other. Fields not read take their own default. Suspected false for plain fields with a default of their own.", "quantifier": "every struct shape, every document", "why_tests_cant": "all shapes and documents", "anchors": ["fieldx_derive/src/codegen/serde.rs:serde_field_attribute", "fieldx_derive/src/codegen/serde.rs:serde_shadow_default_fn", "fieldx_derive/src/codegen/serde.rs:serde_struct_from_shadow", "fieldx_derive/src/codegen/plain.rs:field_from_shadow", "fieldx_derive/src/codegen/sync.rs:field_from_shadow"]}
{"id": "C50", "title": "Generic parameters in generated items", "statement": "In every item generated for a generic struct the parameters are declared with their bounds where the item introduces them, without defaults on an impl, and are named alone wherever the struct, its builder or its shadow is mentioned. Suspected false for serde and for the builder of an rc struct.", "quantifier": "every struct shape, every list of parameters", "why_tests_cant": "all combinations of arguments and parameter lists", "anchors": ["fieldx_derive/src/codegen.rs:builder_impl", "fieldx_derive/src/codegen.rs:builder_struct", "fieldx_derive/src/codegen/serde.rs:serde_struct_from_shadow", "fieldx_derive/src/codegen/serde.rs:serde_struct_attribute"]}
{"id": "C51", "title": "Reference-counted structs: exclusive access is never available", "statement": "For an object returned by new() or build() of a struct with rc, Rc::get_mut (Arc::get_mut) fails at every moment of its life, even with a single owner, because the object's own weak self-reference counts; so the methods that need &mut self (setters, clearers and mutable accessors of plain fields) can only be called after moving or cloning the object (make_mut, try_unwrap), and after make_mut myself() no longer returns the object it is called on.", "quantifier": "every sequence of operations on any number of objects", "why_tests_cant": "a test sees one history; the claim is about all of them", "anchors": ["fieldx_derive/src/codegen.rs:prepare_ref_counted", "fieldx_derive/src/codegen/codegen_trait.rs:maybe_ref_counted_create", "fieldx_derive/src/codegen/plain.rs:field_setter"]}
{"id": "C52", "title": "Keyword arguments", "statement": "In every accepted attribute a documented keyword (lib.rs:42) is on exactly when it is written as a word (or with nothing in parentheses), off exactly when written with off in parentheses, unset exactly when absent, and nothing else may follow it; the flag skip takes nothing at all. Suspected false for rc.", "quantifier": "every token list accepted, every keyword, every set of Cargo features", "why_tests_cant": "token lists are unbounded in length and depth; a test fixes one", "anchors": ["fieldx_aux/src/value.rs:as_keyword", "fieldx_aux/src/nesting_attr.rs:from_meta", "fieldx_derive/src/lib.rs:42"]}
{"id": "C53", "title": "Order of arguments", "statement": "The meaning of an attribute does not depend on the order of its arguments, of their sub-arguments at any depth, on the kind of parentheses, on a trailing comma, or on how the arguments of a field are spread over several fieldx attributes (lists of attributes, paths and default values excepted).", "quantifier": "every two token lists that differ in this way", "why_tests_cant": "token lists are unbounded in length and depth; a test fixes one", "anchors": ["fieldx_aux/src/nesting_attr.rs:extract_literals", "fieldx_derive/src/util/args.rs", "fieldx_derive/src/fields.rs:from_field"]}
{"id": "C54", "title": "No argument is given twice", "statement": "A name that gets two arguments, or two literals, in an attribute, over the attributes of a field or inside any argument that takes named sub-arguments is refused; nothing that was written is silently dropped. Suspected false for a name given both as a literal and as name(..), and for the bare attribute beside another.", "quantifier": "every token list, any depth", "why_tests_cant": "token lists are unbounded in length and depth; a test fixes one", "anchors": ["fieldx_aux/src/nesting_attr.rs:extract_literals", "fieldx_aux/src/util.rs:set_literals", "fieldx_derive/src/fields.rs:mark_implicitly"]}
{"id": "C55", "title": "Arguments round trip", "statement": "Every set of arguments that can be written down is read back exactly as written when no two of them exclude each other and the features they need are enabled, and is refused otherwise; whatever is accepted has neither problem. Suspected false for some forms the documentation promises.", "quantifier": "every value of every argument, every combination, every set of features", "why_tests_cant": "token lists are unbounded in length and depth; a test fixes one", "anchors": ["fieldx_aux/src/accessor_helper.rs", "fieldx_aux/src/builder_helper.rs", "fieldx_aux/src/serde_helper.rs", "fieldx_aux/src/default_arg.rs", "fieldx_derive/src/util/args.rs:validate", "fieldx_derive/src/fields.rs:validate"]}
{"id": "C56", "title": "A word and the word with nothing in parentheses", "statement": "keyword() and keyword mean the same, for every argument. Suspected false for public, attributes, rename and post_build.", "quantifier": "every argument, every attribute around it", "why_tests_cant": "token lists are unbounded in length and depth; a test fixes one", "anchors": ["fieldx_aux/src/nesting_attr.rs:from_meta", "fieldx_aux/src/value.rs", "fieldx_aux/src/syn_value.rs"]}
{"id": "C57", "title": "Default values are taken as written", "statement": "default(x) at a field takes one literal, path or call x and keeps its text unchanged; default(off, x) keeps it but turns it off; default alone asks for Default::default(). Suspected false: default(off) does not turn the default off; other expressions are refused.", "quantifier": "every token list accepted", "why_tests_cant": "token lists are unbounded in length and depth; a test fixes one", "anchors": ["fieldx_aux/src/default_arg.rs:from_list"]}
{"id": "C58", "title": "Arguments that need a Cargo feature", "statement": "An argument that needs a feature which is not enabled is refused by the macro, at both levels. Suspected false for mode(sync), mode(async), lock, reader and writer.", "quantifier": "every token list, every set of features", "why_tests_cant": "token lists are unbounded in length and depth; a test fixes one", "anchors": ["fieldx_derive/src/util.rs:feature_required", "fieldx_derive/src/util/args.rs:validate", "fieldx_derive/src/fields.rs:validate"]}
{"id": "C59", "title": "Async builders that only touch lower fields cannot deadlock", "statement": "If builders of async fields take locks on fields of lower rank only, then no reachable state is stuck, no schedule is endless and everything can be completed, with any number of tasks, futures dropped at any await and tasks aborted. Suspected false when 'lower' is all that is asked of builders that keep guards.", "quantifier": "every number of tasks and fields, every builder, every schedule with drops and aborts", "why_tests_cant": "tests run some interleavings of a few tasks; drops at a given await of a nested builder cannot be forced", "anchors": ["fieldx/src/async/fxproxy.rs:153-209", "fieldx/src/async/fxlock.rs:23-30"]}
{"id": "C60", "title": "No lock outlives its task", "statement": "Every lock and every place in a queue belongs to a task that is not finished; dropping a call or aborting a task frees everything it had taken, down through all builders, changes no field and is held up by nothing.", "quantifier": "every reachable state, every drop and abort", "why_tests_cant": "tests run some interleavings of a few tasks; drops at a given await of a nested builder cannot be forced", "anchors": ["fieldx/src/async/fxproxy.rs:153-166"]}
{"id": "C61", "title": "Async builders that depend on themselves", "statement": "A builder that waits for its own field, directly or around a circle, never ends and its field never gets a value; calls that ask for it get no answer until they are dropped; aborting the task frees everything.", "quantifier": "every circle, every schedule", "why_tests_cant": "tests run some interleavings of a few tasks; drops at a given await of a nested builder cannot be forced", "anchors": ["fieldx/src/async/fxproxy.rs:153-166"]}
{"id": "C62", "title": "Blocking calls on async fields", "statement": "Clone, Debug and == of async fields (blocking_read) panic whenever they are called inside a runtime, never outside, and the panic leaves all fields and locks unchanged. Suspected: derived Clone of an async struct cannot be used in async code.", "quantifier": "every reachable state, every task", "why_tests_cant": "tests run some interleavings of a few tasks; drops at a given await of a nested builder cannot be forced", "anchors": ["fieldx/src/async/fxproxy.rs:108-114", "fieldx/src/async/fxproxy.rs:256-264", "fieldx/src/async/fxlock.rs:37-42", "fieldx/src/async/fxlock.rs:75-78"]}
{"id": "C63", "title": "The order of async lazy reads does not matter", "statement": "With builders that only read other fields, every async field that has a value has the value given by the builders alone, for every order of reads, every schedule and every drop from outside, and agrees with sync fields; a builder that succeeds runs at most once. Suspected false when futures are dropped: at most once more per drop.", "quantifier": "every graph of builders, every set of tasks, every schedule", "why_tests_cant": "tests run some interleavings of a few tasks; drops at a given await of a nested builder cannot be forced", "anchors": ["fieldx/src/async/fxproxy.rs:149-209"]}
{"id": "C64", "title": "Asking a field again while keeping its guard", "statement": "A task that keeps a guard and asks the same field for anything it cannot share (a lazy read included) waits for itself for ever; tasks that only share never wait. Suspected false once a writer waits: a second read guard or a == a deadlocks.", "quantifier": "every reachable state, every schedule", "why_tests_cant": "tests run some interleavings of a few tasks; drops at a given await of a nested builder cannot be forced", "anchors": ["fieldx/src/async/fxproxy.rs:153-166", "fieldx/src/async/fxlock.rs:23-42"]}
{"id": "C65", "title": "An async lazy field among many others is an atomic cell", "statement": "In a system of any number of async fields and tasks, with builders that call other fields, futures dropped at any await and tasks aborted, all that is seen of one lazy field (calls, builder starts and ends, answers) is a history of the atomic cell of C14: values have a source in this field, errors and panics come from a builder the same task ran, builders run only for calls that ask for the value and succeed at most once per emptying, and the flag agrees with the value whenever no write lock is held.", "quantifier": "every number of fields and tasks, every builder, every schedule with drops and aborts", "why_tests_cant": "the single-field tests never nest builders of several fields under drops; a test sees one schedule", "anchors": ["fieldx/src/async/fxproxy.rs:108-264"]}
{"id": "C66", "title": "A sync lazy field among many others is an atomic cell", "statement": "In a system of any number of sync fields and threads, with builders that call other fields and a lock whose writers first take the writer bit and then wait for the readers, all that is seen of one lazy field (calls, builder starts and ends, answers) is a history of the atomic cell of C05: values have a source in this field, errors and panics come from a builder the same thread ran, builders run only for calls that ask for the value and succeed at most once per emptying, the flag agrees with the value whenever nobody has the writer bit, and while a guard is kept no other thread changes the value or builds.", "quantifier": "every number of fields and threads, every builder, every schedule", "why_tests_cant": "the single-field tests never nest builders of several fields under contention; a test sees one schedule", "anchors": ["fieldx/src/sync/fxproxy.rs:94-256"]}
{"id": "C67", "title": "A sync locked field shows the value last set", "statement": "In a system of any number of sync fields and threads, with a parking_lot-like lock, every guard of a locked field and every read through it shows the value that was last set through a write guard (or the first one); clones and comparisons show the values as they were at one moment during the call; a write guard is the only guard of its field.", "quantifier": "all systems of fields, builders and threads that use the field as a locked one, all schedules, all values", "why_tests_cant": "Stale or torn reads show only under particular interleavings; a test sees a few of them.", "anchors": ["fieldx/src/sync/fxlock.rs:9-70", "fieldx/src/sync/fxproxy.rs:264-268"]}
{"id": "C68", "title": "An async locked field shows the value last set, whatever futures are dropped", "statement": "The same for async locked fields with tokio's lock: futures may be dropped and tasks aborted at any await; blocking calls (clone, ==) panic inside the runtime and otherwise answer like the sync ones; only read and write can be cancelled.", "quantifier": "all systems of fields, builders and tasks that use the field as a locked one, all schedules with drops and aborts, all values", "why_tests_cant": "The number of interleavings with dropped futures is unbounded; tests drop few futures at few places.", "anchors": ["fieldx/src/async/fxlock.rs:9-80"]}
{"id": "C69", "title": "Attributes end up on the documented items", "statement": "attributes, attributes_impl, attributes_fn, serde(attributes), serde(forward_attrs), builder(attributes), builder(attributes_impl) and the attributes of a field are put exactly on the items the documentation names, the most specific list winning, in the given order. Suspected false for get_mut of sync fields and for the serde shadow.", "quantifier": "every combination of arguments and attributes, every list of fields", "why_tests_cant": "Combinatorial, and a misplaced attribute usually compiles silently.", "anchors": ["fieldx_derive/src/util/args.rs:builder_attributes", "fieldx_derive/src/codegen/codegen_trait.rs:attributes_fn", "fieldx_derive/src/codegen/serde.rs:filter_shadow_attributes", "fieldx_derive/src/lib.rs:94-125"]}
{"id": "C70", "title": "The Copy check covers exactly the fields that are copied", "statement": "A type is required to be Copy by the generated check exactly when some emitted getter of a field of this type needs it. Suspected false for skipped fields.", "quantifier": "every combination of arguments, every list of fields", "why_tests_cant": "combinatorial", "anchors": ["fieldx_derive/src/codegen.rs:prepare_field", "fieldx_derive/src/codegen.rs:489-503"]}
{"id": "C71", "title": "Reference counting works with every other struct argument", "statement": "The hidden weak self reference of an rc struct is declared as Weak<Self>, can be defaulted and is not required to be Copy, whatever the other struct-level arguments are. Suspected false for inner_mut, lock/reader/writer, get(copy), fallible.", "quantifier": "every combination of struct-level arguments", "why_tests_cant": "combinatorial; tests combine rc with few arguments", "anchors": ["fieldx_derive/src/codegen.rs:prepare_ref_counted", "fieldx_derive/src/codegen.rs:myself_methods"]}
{"id": "C72", "title": "The macro does not panic", "statement": "Whatever struct and arguments it is given, the expansion ends with code or with compile errors, never with a panic of the macro. Suspected false for names that are no identifiers, raw identifiers combined with serde defaults, and a bare default on sync lazy/optional fields.", "quantifier": "every struct, every combination of arguments", "why_tests_cant": "Every unwrap, expect and format_ident! would have to be reached with every combination of arguments.", "anchors": ["fieldx_derive/src/codegen.rs:rewrite", "fieldx_derive/src/codegen/codegen_trait.rs:helper_name", "fieldx_derive/src/codegen/sync.rs:228", "fieldx_derive/src/ctx/field.rs:default_fn_ident"]}
{"id": "C73", "title": "Names made by the macro", "statement": "Every helper without a name of its own gets the documented name, built on the field's name (without r#) or its rename; all names made by the macro can be written in code. Suspected false for getters of fields named by a raw keyword.", "quantifier": "every field name, every argument", "why_tests_cant": "infinitely many names", "anchors": ["fieldx_derive/src/codegen/codegen_trait.rs:helper_name", "fieldx_derive/src/ctx/codegen.rs:builder_ident", "fieldx_derive/src/ctx/codegen.rs:shadow_ident", "fieldx_derive/src/ctx/codegen.rs:myself_names"]}
{"id": "C74", "title": "Complaints and completeness", "statement": "The macro complains exactly about the fields whose error type is needed but unknown and about a malformed struct-level serde default, about all of them at once; a field is left out of the struct, Default, the builder or a conversion only if a complaint names it.", "quantifier": "every struct, every combination of arguments", "why_tests_cant": "A silently missing field would only show with the right combination of arguments.", "anchors": ["fieldx_derive/src/codegen.rs:rewrite", "fieldx_derive/src/codegen/codegen_trait.rs:field_methods", "fieldx_derive/src/ctx/codegen.rs:ok_or_record", "fieldx_derive/src/codegen/serde.rs"]}
{"id": "C75", "title": "Only the documented arguments are accepted", "statement": "Arguments of fxstruct and fieldx are accepted if and only if each is in the table of arguments of its level, in a form that the table allows (down to every nested option), none is given twice, no two exclude each other, and the features they need are on; and an argument that makes a method is asked for, turned off or left open exactly as it is written.", "quantifier": "every token sequence, every set of features", "why_tests_cant": "infinitely many token sequences; a table is only right if everything outside it is refused", "anchors": ["fieldx_derive/src/util/args.rs", "fieldx_derive/src/fields.rs", "fieldx_aux/src/nesting_attr.rs", "fieldx_aux/src/base_helper.rs", "fieldx_aux/src/builder_helper.rs", "fieldx_aux/src/serde_helper.rs"]}
{"id": "C76", "title": "Lazy fields on weak memory", "statement": "With loads and stores that may get or leave old values unless the locks, or other synchronisation between activities, forbid it: no two accesses to the value of a sync or async lazy field race; every history is one that sequentially consistent memory also gives, except for the answers of the predicate; the predicate answers what was true at some moment not before its caller last owned the lock or heard from an activity that did, and its answers to one activity, or to one that has heard from another, never go back in time; and every sequentially consistent execution is still possible.", "quantifier": "every schedule of any number of activities, every choice of what a load gets and where a store goes, every builder outcome, every abandoned call, all value and error types", "why_tests_cant": "reorderings depend on the processor and the compiler; x86 shows almost none of them", "anchors": ["fieldx/src/sync/fxproxy.rs", "fieldx/src/async/fxproxy.rs"]}
{"id": "C77", "title": "From the words of the attributes to methods, names and types", "statement": "For every accepted #[fxstruct(...)] and #[fieldx(...)]: which of the three generators makes a field, which methods it gets, what each is called, and its type, are those that the written tokens ask for by the documented rules (field before struct before default; a bare #[fieldx] switches lazy, clearer and predicate off); so is whether there is a builder, which setters it has, and their names.", "quantifier": "all token sequences that the macro accepts, all sets of features, all structs and fields, all methods", "why_tests_cant": "the combinations of arguments on the struct, on the field and on the other fields are endless; tests use a few", "anchors": ["fieldx_derive/src/fields.rs", "fieldx_derive/src/util/args.rs", "fieldx_derive/src/ctx/field.rs", "fieldx_derive/src/ctx/codegen.rs", "fieldx_derive/src/codegen/codegen_trait.rs", "fieldx_derive/src/codegen/plain.rs", "fieldx_derive/src/codegen/sync.rs", "fieldx_aux/src/nesting_attr.rs"]}
{"id": "C78", "title": "Which structs and futures are Send and Sync", "statement": "For every accepted struct and whatever Send and Sync the declared types have (they may refer to the struct itself): the struct is Send exactly if all declared types are, and with rc it is also for threads and Sync; it is Sync exactly if no field is in a cell (plain and lazy or inner_mut), all declared types are Sync and those behind a lock are Send too, and with rc it is for threads and Send. Fields all behind locks, of types that are Send and Sync, make a struct that is both, as documented. The bound Sync that the library puts on a struct with lazy async fields is met exactly if the struct is Sync. The future of every async method is Send exactly if the struct is Sync and, for a setter with into, its argument is Send.", "quantifier": "all token sequences that the macro accepts, all structs, all declared types with any combination of Send and Sync and any references to the struct, all async methods", "why_tests_cant": "Send and Sync are checked by the compiler for the few structs of the tests; whether other combinations of arguments and types have them is never asked", "anchors": ["fieldx_derive/src/codegen.rs", "fieldx_derive/src/codegen/plain.rs", "fieldx_derive/src/codegen/sync.rs", "fieldx_derive/src/codegen/sync/impl_async.rs", "fieldx/src/sync/fxproxy.rs", "fieldx/src/async/fxproxy.rs", "fieldx/src/sync/fxlock.rs", "fieldx/src/async/fxlock.rs", "fieldx/src/lib.rs"]}
{"id": "C79", "title": "Visibility and signatures of the methods are those the written attributes ask for", "statement": "For every accepted struct and every method made for a field: its visibility is the one told by the words written (the argument of the method at the field, the field, the argument of the method at the struct, the struct, else that of the struct itself; get_mut of a sync field goes by get), and whether it is an async fn, how it takes self, the type of its argument and the type it returns are the ones that follow from the words for copy, clone, as_ref, into, fallible, lazy, optional, lock, inner_mut and the mode. What decides is told in exactly one way. The setters of the builder are public, take and return the builder by value, and convert what they are given exactly if told so.", "quantifier": "all token sequences that the macro accepts, all structs and fields, all methods", "why_tests_cant": "the four places where visibility and flavour can be written, their forms and their precedence give far more combinations than the tests have; a wrong precedence shows as a compile error or a leak only in the combination concerned", "anchors": ["fieldx_derive/src/codegen/plain.rs", "fieldx_derive/src/codegen/sync.rs", "fieldx_derive/src/ctx/field.rs", "fieldx_derive/src/helper.rs", "fieldx_derive/src/fields.rs", "fieldx_derive/src/util/args.rs", "fieldx_aux/src/accessor_helper.rs", "fieldx_aux/src/setter_helper.rs"]}
{"id": "C80", "title": "Default, the constructor, the reference to itself and what build() demands follow from the written attributes", "statement": "For every accepted struct: Default is implemented exactly if the words written ask for it (default at the struct, else no_new is not on, else a field has a default or is lazy in a struct for threads) and there is a field; the constructor is new, or hidden under another name with no_new, or absent without Default; the struct is reference-counted exactly if rc is written and on, with the name written for the method; build() refuses a missing field exactly if the words demand it (builder(required) at the field or the struct, else the field takes part in the builder and is neither lazy nor optional nor has a default).", "quantifier": "all token sequences that the macro accepts, all structs and fields", "why_tests_cant": "absence of a constructor or of a check shows only in user code that relies on it; the words interact across all the fields", "anchors": ["fieldx_derive/src/ctx.rs", "fieldx_derive/src/ctx/field.rs", "fieldx_derive/src/codegen.rs", "fieldx_derive/src/fields.rs", "fieldx_derive/src/util/args.rs"]}
{"id": "C81", "title": "What goes through serde follows from the written attributes", "statement": "For every accepted struct: Serialize and Deserialize are derived for the struct and its shadow, the struct is told to convert through the shadow, and the conversions are made, each exactly if the words ask for the direction; the shadow has the written name and visibility, and Default exactly if the struct has; a field is in the shadow exactly if it takes part, wrapped in an Option exactly if it is lazy or optional; it is copied into the shadow, built beforehand, copied back, or skipped by serde exactly as the words for its directions say, and one that takes part always goes at least one way.", "quantifier": "all token sequences that the macro accepts, all structs and fields", "why_tests_cant": "each direction can be on, off or unnamed at two levels and one word decides for the other; a field left out silently loses data", "anchors": ["fieldx_derive/src/codegen/serde.rs", "fieldx_derive/src/ctx/field.rs", "fieldx_derive/src/ctx.rs", "fieldx_aux/src/serde_helper.rs", "fieldx_derive/src/util/args.rs", "fieldx_derive/src/fields.rs"]}
{"id": "C82", "title": "A field behaves as the written attributes say", "statement": "For every accepted struct, field and program that calls the methods of the field by name, keeps guards, looks and assigns through them and drops them: each call runs the method that the words give the name; the answers, the content and the number of builds are those of the optional cell that the words describe (lazy, optional, inner_mut, lock, fallible, sync, async, copy, clone); with no guard kept there is always an answer, that of a bare cell; while guards are kept a call panics, waits or answers exactly as the words say; Default puts in the written value, nothing for a lazy or optional field, else the default of the type.", "quantifier": "all token sequences that the macro accepts, all fields, all programs, all builders", "why_tests_cant": "the whole chain from tokens through parsing, settings and code to the run is a product of all attributes with all call sequences", "anchors": ["fieldx_derive/src/codegen/plain.rs", "fieldx_derive/src/codegen/sync.rs", "fieldx_derive/src/codegen.rs", "fieldx_derive/src/ctx/field.rs", "fieldx_derive/src/fields.rs"]}
{"id": "C83", "title": "The builder behaves as the written attributes say", "statement": "For every accepted struct and every sequence of setter calls and build() calls: the builder is a form with one entry for each field that is not skipped, in order; the words decide whether the entry can be set, whether build() insists on it, and what it falls back to (the written default, nothing for lazy and optional, the default of the type if default is written or there is no setter); all answers are those of the form.", "quantifier": "all token sequences that the macro accepts, all sequences of calls", "why_tests_cant": "which fields are demanded depends on struct and field attributes together; tests try a few structs and orders of calls", "anchors": ["fieldx_derive/src/codegen.rs", "fieldx_derive/src/codegen/plain.rs", "fieldx_derive/src/codegen/sync.rs", "fieldx_derive/src/ctx/field.rs", "fieldx_aux/src/builder_helper.rs"]}
{"id": "C84", "title": "Documents follow from the written attributes", "statement": "For every accepted struct with serde, every object and every document: the words determine for each field its key, whether it is written and read, what it starts with and what serde is told to use for a missing key (the field's serde(default..), else the struct's); what is written, how often lazy builders run and when writing panics, which documents are refused, what the others give, and what an object holds after being written and read back, are exactly as these say.", "quantifier": "all token sequences that the macro accepts, all objects, all documents, all builders", "why_tests_cant": "tests write and read a few objects of a few structs; the words of struct and field, the mode, laziness and defaults all interact", "anchors": ["fieldx_derive/src/codegen/serde.rs", "fieldx_derive/src/ctx/field.rs", "fieldx_aux/src/serde_helper.rs", "fieldx_aux/src/default_arg.rs", "fieldx_derive/src/codegen.rs"]}
{"id": "C85", "title": "Lazy containers are a cell with guards that exclude each other", "statement": "For every initial content, every schedule of any number of activities and every behaviour of the builder: the calls and returns of FXProxySync (FXProxyAsync) are those of an optional cell whose calls take effect at one instant between call and return, the builder running at that instant; reading needs that nobody writes (async: that nobody keeps any guard), writing and building that nobody keeps a guard; abandoned async calls have no effect. A call made while all others rest returns by its own steps exactly if the cell can answer it.", "quantifier": "all values, error types, initial contents, schedules, builder outcomes, cancellations, numbers of activities", "why_tests_cant": "Interleavings, lock states and builder outcomes are unbounded; a test sees a few schedules.", "anchors": ["fieldx/src/sync/fxproxy.rs:103-241", "fieldx/src/async/fxproxy.rs:104-249"]}
{"id": "C86", "title": "Methods of a shared lazy field answer as one cell", "statement": "For every sync or async struct and every lazy field whose methods compile, every initial content, every schedule of any number of threads or tasks calling the emitted methods, using and dropping the guards they get, and every behaviour of the builder: what the users see is a history of the cell that answers the same calls in a single thread, each call or use taking place at one instant between its call and its return; calls whose future is dropped have done nothing; no emitted body meets a value it does not handle. While a call is in progress something can move, unless somebody keeps a guard.", "quantifier": "all settings of the field, initial contents, schedules, numbers of threads or tasks, builder outcomes, dropped futures", "why_tests_cant": "Interleavings inside the bodies of methods and of containers are unbounded, as are settings and builder outcomes.", "anchors": ["fieldx_derive/src/codegen/sync.rs", "fieldx/src/sync/fxproxy.rs:103-241", "fieldx/src/async/fxproxy.rs:104-249"]}
{"id": "C87", "title": "Methods of a shared locked field answer as one cell", "statement": "For every sync or async struct and every field kept in a lock whose methods compile and mean what they say, every initial content, every schedule of any number of threads or tasks calling the emitted methods, using and dropping the guards they get: what the users see is a history of the cell that answers the same calls in a single thread, each call or use taking place at one instant between its call and its return; calls whose future is dropped have done nothing; no emitted body meets a value it does not handle. While a call is in progress something can move, unless somebody keeps a guard.", "quantifier": "all settings of the field, initial contents, schedules, numbers of threads or tasks, dropped futures", "why_tests_cant": "Interleavings inside the bodies of methods are unbounded, as are settings, users and kept guards.", "anchors": ["fieldx_derive/src/codegen/sync.rs:63-111", "fieldx_derive/src/codegen/sync.rs:212-370", "fieldx_derive/src/codegen/sync.rs:456-647", "fieldx/src/sync/fxlock.rs", "fieldx/src/async/fxlock.rs"]}
{"id": "C88", "title": "Every generated function has its own name", "statement": "In every accepted struct no two functions put into the impl of the struct have the same name, nor the name of a method the user has to write for a lazy field; the same for the impl of the builder; and the value of every lazy field, plain, sync or async, is built by the user's method of that field. Suspected false for fields named like generated functions and for async fields sharing a builder.", "quantifier": "all structs, fields and arguments without chosen names", "why_tests_cant": "Names are texts built from any number of fields of any name; a test tries a few.", "anchors": ["fieldx_derive/src/codegen.rs:205-280", "fieldx_derive/src/codegen.rs:326-422", "fieldx_derive/src/codegen.rs:467-528", "fieldx_derive/src/codegen/codegen_trait.rs:303-322", "fieldx_derive/src/codegen/sync/impl_async.rs:12-55", "fieldx_derive/src/codegen/sync/impl_sync.rs:25-34", "fieldx_derive/src/codegen/serde.rs:190-220", "fieldx_derive/src/codegen/serde.rs:473-524"]}
{"id": "C89", "title": "A shared object answers as a record of cells", "statement": "For every struct, every choice of fields with contents that can be shared between threads (lazy, locked, or neither), every schedule of any number of threads or tasks calling the emitted methods of all of them, using and dropping guards, and builders that call methods of the same object: what the users see is a history of a record with one cell for each field, each call taking place at one instant between call and return in one order for all the fields. If builders call methods only of fields below their own in some order, then while a call is in progress something can move or somebody keeps a guard; without such an order this fails. The cells are those the words of the attributes describe.", "quantifier": "all structs, fields, contents, schedules, nestings of builders and builder behaviours", "why_tests_cant": "Needs all interleavings over any number of fields and threads, and all ways builders can call each other.", "anchors": ["fieldx_derive/src/codegen/sync.rs:53-112", "fieldx_derive/src/codegen/sync.rs:179-647", "fieldx_derive/src/codegen/plain.rs:40-61", "fieldx_derive/src/codegen/codegen_trait.rs:287-315", "fieldx/src/sync/fxproxy.rs:12-214", "fieldx/src/async/fxproxy.rs:14-222"]}
{"id": "C90", "title": "The names in the generated code mean what they should", "statement": "For every struct, arguments and surroundings (parameters of the struct, items and imports of its module, names in field types and defaults): if a fixed list of names is left alone, every name in the generated code resolves to what it is meant to, and every word of the user repeated in it means what it means at the struct. When the macro accepts the struct this holds exactly when the names counted on (told from the arguments of each field) stand for what they should, the lifetimes and type parameters added are none of the struct's, and no word of the user stands under a variable or parameter of the same name.", "quantifier": "all structs, arguments and surroundings", "why_tests_cant": "Tests put structs into modules with ordinary names; capture happens only for particular names in particular places, and for every combination of arguments.", "anchors": ["fieldx_derive/src/codegen.rs:205-249", "fieldx_derive/src/codegen.rs:282-465", "fieldx_derive/src/codegen.rs:467-529", "fieldx_derive/src/codegen/plain.rs:40-476", "fieldx_derive/src/codegen/sync.rs:53-694", "fieldx_derive/src/codegen/codegen_trait.rs:232-524", "fieldx_derive/src/codegen/serde.rs:159-441", "fieldx_derive/src/codegen/sync/impl_async.rs:36-55"]}
{"id": "C91", "title": "A shared object on weak memory answers as a record of cells", "statement": "On memory that is not sequentially consistent (loads may get old writes unless a later one is known, stores may be put before writes not known; knowledge passes through locks and from field to field by whatever orders the threads), for every object of a struct, every schedule and every choice of writes: no field has a data race; what the users see is a history of a record of cells but for the answers of predicates of lazy fields, and exactly one if no such predicate has answered; and memory stops nobody from going on.", "quantifier": "all structs, contents, schedules, choices of loads and stores, and orders between threads", "why_tests_cant": "Tests run on strongly ordered machines and see a few schedules; reordering of stores and stale loads happen only on other hardware or with other compilers.", "anchors": ["fieldx/src/sync/fxproxy.rs:67-276", "fieldx/src/async/fxproxy.rs:82-265", "fieldx/src/sync/fxlock.rs:8-60", "fieldx_derive/src/codegen/sync.rs:179-690"]}
{"id": "C92", "title": "Calls on a shared object make a bounded number of steps and end", "statement": "For every object of a struct and every schedule of any number of threads or tasks: in one field an activity makes at most twenty steps for each call and each use of a guard, letting go of the guard included, whatever the others do; if nothing new is asked every schedule is finite; when no step is possible any more without a new call, nobody is in a call and nobody keeps a guard, if builders call only methods of fields below their own; and so from every state all calls can end, whatever the builders answer. Also on weak memory.", "quantifier": "all structs, contents, schedules, endings of builders; on weak memory all choices of loads and stores", "why_tests_cant": "A test that passes shows that one schedule ended; a deadlock or a retry loop may need a schedule nobody has tried, and a test that hangs proves nothing.", "anchors": ["fieldx/src/sync/fxproxy.rs:94-256", "fieldx/src/async/fxproxy.rs:108-264", "fieldx_derive/src/codegen/sync.rs:179-690"]}
{"id": "C93", "title": "Through all its life an object is one record of cells", "statement": "An object that the builder (without post_build), Default or a document made is used by its owner, one field after another, is shared by any number of threads or tasks, used by its owner again, and so on. For every such life: what owners and users see is what those of a record of cells can see that begins with what the builder was given, what defaults say, or what the document says, and whose contents go on from scene to scene; when all users of a scene are done every lock is free, the flag of every lazy field says whether there is a value, and every field stores what its cell holds; and if it began with a document, the document written at the end is the one that the contents of the cells then call for. The fields can be shared unless one is not sync and is lazy or changed inside.", "quantifier": "all structs, words of attributes, forms, documents, scenes, schedules, endings of builders", "why_tests_cant": "A test follows one object through one life; what a phase leaves behind (a lock that is not free, a flag without a value) shows only in later phases, under schedules that are rare.", "anchors": ["fieldx_derive/src/codegen/codegen_trait.rs:287-321", "fieldx_derive/src/codegen/sync.rs:179-690", "fieldx_derive/src/codegen/plain.rs:40-331", "fieldx_derive/src/codegen/serde.rs:290-420", "fieldx/src/sync/fxproxy.rs:68-256", "fieldx/src/async/fxproxy.rs:82-264"]}
{"id": "C94", "title": "On weak memory too an object is one record of cells through all its life", "statement": "As C93, but on memory that is not sequentially consistent (loads may get old writes unless a later one is known, stores may be put before writes not known; knowledge passes through locks and by whatever orders the threads), the owner being ordered after its users only by joining them. For every life: there is no data race, neither among the users of a scene nor between them and the owner who comes after them; in each field the owner can find something, and only what the users left last; what owners and users see is what those of a record of cells can see that goes on from scene to scene, but for what predicates of lazy fields say while the object is shared, and exactly that if no such predicate has answered; in the end every field stores what its cell holds and the document written is the one this calls for.", "quantifier": "all structs, words of attributes, forms, documents, scenes, schedules, endings of builders, choices of writes that loads get and of places that stores take", "why_tests_cant": "Hardware on which tests run may never show a stale load; that the owner finds the last write after joining, on every schedule, depends on orderings no test can pick.", "anchors": ["fieldx_derive/src/codegen/codegen_trait.rs:287-321", "fieldx_derive/src/codegen/sync.rs:179-690", "fieldx_derive/src/codegen/serde.rs:290-420", "fieldx/src/sync/fxproxy.rs:68-256", "fieldx/src/async/fxproxy.rs:82-264", "fieldx/src/sync/fxlock.rs:8-60", "fieldx/src/async/fxlock.rs:8-60"]}
{"id": "C95", "title": "Helper types made by fxhelper check their options in every build", "statement": "For every declaration given to the macro fxhelper and every order in which its HashMap of groups is gone through: it makes something unless an option in a group has a type that is no path; what it makes compiles exactly if no option (those of all helpers included) and no derived trait is there twice and the options in groups are Flags by this name or Options; and then the emitted check accepts exactly the values of which no group has more than one option set and which the type's own check, if any, accepts. If it refuses because of a group, the message names a group that clashes and all its options that are set, in the order of declaration. Whether a value is accepted does not depend on the order; which of several clashing groups is named does, so the text of errors can differ between builds of the same source. The four helper types of fieldx_aux compile, know the options that the parsers know and check what these check.", "quantifier": "all declarations, values of options, own checks and orders of the groups", "why_tests_cant": "The order of a HashMap is random in each run of the compiler, so a test sees the order of one build; and tests see the four declarations there are, not what the macro would do with others.", "anchors": ["fieldx_derive_support/src/lib.rs:35-254", "fieldx_aux/src/base_helper.rs:20-22", "fieldx_aux/src/accessor_helper.rs:28-39", "fieldx_aux/src/setter_helper.rs:10-15", "fieldx_aux/src/builder_helper.rs:13-56"]}
{"id": "C96", "title": "Guards of one field do not disturb other fields", "statement": "For every struct and every program of one thread that goes back and forth between the fields of an object, keeping guards of as many fields as it likes and looking, assigning and dropping in any order: it sees what a record of optional cells shows, one lock or borrow per field (a call that conflicts with a guard of its own field panics or waits forever, one that conflicts with guards of other fields only does not); the builders run as often; the fields store in the end what the cells hold. What a field does depends on what was asked of this field alone, so a session that leaves no guard is as good as scenes in which one field is used after another, and what C93 and C94 say about lives holds for owners who keep guards of many fields at once. The cells can be told from the words of the attributes.", "quantifier": "all structs, fields, contents, builders and programs of one thread", "why_tests_cant": "Programs over several fields with guards kept are unbounded in length and in the choice of fields; tests use one field at a time and drop guards at once.", "anchors": ["fieldx_derive/src/codegen/codegen_trait.rs:287-321", "fieldx_derive/src/codegen/sync.rs:179-459", "fieldx_derive/src/codegen/plain.rs:40-330", "fieldx/src/sync/fxproxy.rs:68-75"]}
{"id": "C97", "title": "Copying, comparing and printing objects shows their contents", "statement": "For every struct that derives Clone, PartialEq or Debug, after every session of one thread with its objects, guards kept or not: clone() gives a copy exactly if no guard that writes is kept, and the copy holds what the object holds, with no guards and fields of the same types, so that all that is proved about objects holds for it; otherwise it panics or hangs at the first such field, as its kind says. == looks at the fields in order up to the first difference; with nothing being written it says true exactly if the contents are the same, so a copy is equal to what it was made from. Printing never panics and hangs exactly if a lazy field of a sync or async struct is being written by the same thread; other fields being written are shown as busy. Fields that are lazy and async have no ==.", "quantifier": "all structs, contents, builders, sessions and kept guards", "why_tests_cant": "A call that hangs cannot be told from a slow one by a test, and which guards are kept where when an object is copied, compared or printed is up to the program.", "anchors": ["fieldx/src/sync/fxproxy.rs:89-101", "fieldx/src/sync/fxproxy.rs:243-276", "fieldx/src/sync/fxlock.rs:23-80", "fieldx/src/async/fxlock.rs:33-88", "fieldx/src/async/fxproxy.rs:103-115", "fieldx/src/async/fxproxy.rs:251-265"]}
