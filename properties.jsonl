{"id": "C01", "title": "Persistent vector round trip", "statement": "For every slice, the persistent vector built with from_slice (or FromIterator) has the slice's length, to_vec and iter return exactly the slice's elements in order, and get(i) returns the i-th element when i < len and None otherwise (also i far beyond the end).", "quantifier": "all element types, all finite slices, all indices", "why_tests_cant": "The set of inputs is infinite and the behaviour changes at capacity boundaries (64, 128, 2112, 67648, ...) that fixed-size tests sample only sparsely.", "anchors": ["src/pvec/core.rs: PersistentVector::{from_slice,from_iter,get,iter,to_vec,len}", "src/pvec/tree.rs: RRBTree::{from_elements,get}"]}
{"id": "C02", "title": "Growing histories behave like a list", "statement": "Starting from new/unit/from_slice, after any sequence of push_back, push_front, update, map, and extend calls the vector's length, get at every index and to_vec agree with performing the same operations on a plain list.", "quantifier": "all finite histories of growing operations with arbitrary arguments", "why_tests_cant": "Histories are unbounded; a structural defect may need a particular interleaving of operations at particular sizes, which example tests cannot enumerate.", "anchors": ["src/pvec/core.rs: push_back, push_front, update, extend, map", "src/pvec/tree.rs: push_back, push_front, push_tail_to_tree, push_head_to_tree, update", "src/pvec/node.rs: push_leaf, push_front_leaf, update"]}
{"id": "C03", "title": "Stack histories (push_back / pop_back / update)", "statement": "Starting from new or from_slice, after any sequence of push_back, update and pop_back, every pop_back returns the last element of the corresponding list (None when empty), leaves the list without its last element, and all reads agree with the list.", "quantifier": "all finite stack histories", "why_tests_cant": "Histories are unbounded; a structural defect may need a particular interleaving of operations at particular sizes, which example tests cannot enumerate.", "anchors": ["src/pvec/core.rs: push_back, pop_back, update", "src/pvec/tree.rs: pop_back, pop_from_tree", "src/pvec/node.rs: pop_back"]}
{"id": "C04", "title": "Deque behaviour of pop_front and mixed ends", "statement": "Mixing push_back/push_front with pop_front/pop_back behaves like a double-ended queue: pop_front always yields the first element and leaves the remaining ones in order; pop_back always yields the last.", "quantifier": "all finite histories mixing both ends", "why_tests_cant": "Histories are unbounded; a structural defect may need a particular interleaving of operations at particular sizes, which example tests cannot enumerate.", "anchors": ["src/pvec/core.rs: pop_front, pop_back", "src/pvec/tree.rs: pop_front, pop_front_from_tree, pop_from_tree", "src/pvec/node.rs: pop_front"]}
{"id": "C05", "title": "concat is list append", "statement": "For all vectors a and b, a.concat(&b) contains the elements of a followed by those of b and has length a.len()+b.len().", "quantifier": "all pairs of persistent vectors reachable through the API", "why_tests_cant": "Requires pairs of trees of arbitrary heights; the failing region is defined by a relation between two heights.", "anchors": ["src/pvec/core.rs: concat, ensure_tree", "src/pvec/tree.rs: concat, concat_same_height, concat_different_height, concat_nodes"]}
{"id": "C06", "title": "split_at partitions the vector", "statement": "For every vector v and index i, v.split_at(i) returns the first i elements and the remaining ones, in order, with correct lengths (everything on the left when i >= len).", "quantifier": "all vectors, all split indices", "why_tests_cant": "The set of inputs is infinite and the behaviour changes at capacity boundaries (64, 128, 2112, 67648, ...) that fixed-size tests sample only sparsely.", "anchors": ["src/pvec/core.rs: split_at", "src/pvec/tree.rs: split_at, split_along_path, find_path_to_index"]}
{"id": "C07", "title": "take / skip", "statement": "take(n) equals the first n elements and skip(n) equals all but the first n, for every n including n >= len.", "quantifier": "all vectors, all n", "why_tests_cant": "The set of inputs is infinite and the behaviour changes at capacity boundaries (64, 128, 2112, 67648, ...) that fixed-size tests sample only sparsely.", "anchors": ["src/pvec/core.rs: take, skip"]}
{"id": "C08", "title": "insert / remove", "statement": "insert(i,x) places x at index i shifting later elements by one and keeps all other elements; remove(i) deletes exactly the element at i; both leave elements elsewhere unchanged.", "quantifier": "all vectors, all indices, all values; and chains of such calls", "why_tests_cant": "Histories are unbounded; a structural defect may need a particular interleaving of operations at particular sizes, which example tests cannot enumerate.", "anchors": ["src/pvec/core.rs: insert, remove"]}
{"id": "C09", "title": "Sequence combinators of the vector agree with list combinators", "statement": "map, filter, filter_map, flat_map, zip, partition, fold, dedup, sorted and chunk return exactly what the corresponding list function returns, with order preserved; sorted yields a sorted permutation (stable), chunk's pieces concatenate back to the vector and have the requested size.", "quantifier": "all vectors, all closures, all chunk sizes >= 1", "why_tests_cant": "The law ranges over all values and all user closures; tests fix a handful of closures and values.", "anchors": ["src/pvec/core.rs: map, filter, filter_map, flat_map, zip, partition, fold, dedup, sorted, chunk"]}
{"id": "C10", "title": "Vector functor laws", "statement": "v.fmap(id) and v contain the same sequence; v.fmap(f).fmap(g) and v.fmap(g after f) contain the same sequence; length is preserved.", "quantifier": "all vectors, all pure functions", "why_tests_cant": "The law ranges over all values and all user closures; tests fix a handful of closures and values.", "anchors": ["src/pvec/traits.rs: Functor"]}
{"id": "C11", "title": "Vector semigroup / monoid laws", "statement": "combine is associative on the represented sequences, and empty() is a two-sided identity.", "quantifier": "all (triples of) vectors", "why_tests_cant": "Associativity involves triples of trees of arbitrary heights.", "anchors": ["src/pvec/traits.rs: Semigroup, Monoid", "src/pvec/core.rs: concat"]}
{"id": "C12", "title": "Equality is equality of contents", "statement": "Two persistent vectors compare equal exactly when they hold the same sequence of elements, regardless of how they were built.", "quantifier": "all pairs of vectors and construction histories", "why_tests_cant": "Equality is derived on the representation; counterexamples require comparing different construction histories.", "anchors": ["src/pvec/core.rs: #[derive(PartialEq)] PersistentVector", "src/pvec/tree.rs: derive(PartialEq) RRBTree"]}
{"id": "C13", "title": "update frame condition and persistence", "statement": "update(i,x) with i < len changes index i to x and no other index, keeps the length; with i out of range it returns an unchanged sequence; try_update reports the failure; the original vector is unaffected by any operation.", "quantifier": "all vectors, indices, values", "why_tests_cant": "The set of inputs is infinite and the behaviour changes at capacity boundaries (64, 128, 2112, 67648, ...) that fixed-size tests sample only sparsely.", "anchors": ["src/pvec/core.rs: update, try_update", "src/pvec/node.rs: update"]}
{"id": "C14", "title": "Read accessors are mutually consistent", "statement": "first/last/get/try_get/Index/iter/size_hint/fold_left/fold_right/to_vec all describe the same sequence: first = get(0), last = get(len-1), iterating yields exactly len elements, size_hint is exact at each step, fold_right folds from the last element.", "quantifier": "all vectors, all indices, every prefix of an iteration", "why_tests_cant": "The set of inputs is infinite and the behaviour changes at capacity boundaries (64, 128, 2112, 67648, ...) that fixed-size tests sample only sparsely.", "anchors": ["src/pvec/core.rs: first, last, try_get, Index", "src/pvec/iter.rs: next, size_hint", "src/pvec/traits.rs: Foldable"]}
{"id": "C15", "title": "No arithmetic underflow or out-of-bounds on any history", "statement": "For every sequence of public vector operations (including the ones whose contents go wrong) the bookkeeping subtractions never underflow: the buffered head and tail together never exceed the recorded length, so no operation other than the documented indexing panics.", "quantifier": "all finite histories over the whole vector API", "why_tests_cant": "A panic may need an arbitrarily long mixed history.", "anchors": ["src/pvec/core.rs: whole API", "src/pvec/tree.rs: get, update, pop_back, pop_front, split_at"]}
{"id": "C16", "title": "Choice construction and accessors", "statement": "A Choice is a sequence: new(x, xs), of_many, from_iter, From<Vec>, From<&[T]> build the sequence given; first is its head, alternatives its tail, len its length, iter and Vec::from return it unchanged.", "quantifier": "all values and lists", "why_tests_cant": "The law ranges over all values and all user closures; tests fix a handful of closures and values.", "anchors": ["src/datatypes/choice.rs: new, new_empty, of_many, first, alternatives, len, is_empty, FromIterator, From"]}
{"id": "C17", "title": "Choice functor laws", "statement": "fmap preserves identity and composition, keeps the length and the primary position; fmap_owned agrees with fmap.", "quantifier": "all choices and pure functions", "why_tests_cant": "The law ranges over all values and all user closures; tests fix a handful of closures and values.", "anchors": ["src/datatypes/choice.rs: Functor"]}
{"id": "C18", "title": "Choice monad laws", "statement": "bind satisfies left identity, right identity and associativity; bind_owned, join and join_owned agree with bind; bind equals concatenation of the results.", "quantifier": "all choices and Kleisli functions, including ones that return an empty choice", "why_tests_cant": "Associativity quantifies over pairs of arbitrary functions; the failing case needs a continuation that is empty on one alternative.", "anchors": ["src/datatypes/choice.rs: Monad, bind_lazy"]}
{"id": "C19", "title": "Choice applicative laws and lift2/lift3", "statement": "apply satisfies identity, homomorphism, interchange and composition; lift2(f,a,b) equals applying fmap(f,a) to b; apply_owned/lift2_owned/lift3_owned agree with the borrowed versions.", "quantifier": "all choices of functions and values", "why_tests_cant": "The law ranges over all values and all user closures; tests fix a handful of closures and values.", "anchors": ["src/datatypes/choice.rs: Applicative, generate_apply_alternatives"]}
{"id": "C20", "title": "Choice monoid / alternative / MonadPlus laws", "statement": "combine, alt and mplus are the same associative operation with the empty choice as two-sided identity, keep the left primary when present, and mzero is a left zero of bind.", "quantifier": "all (triples of) choices", "why_tests_cant": "The law ranges over all values and all user closures; tests fix a handful of closures and values.", "anchors": ["src/datatypes/choice.rs: Semigroup, Monoid, Alternative, MonadPlus, Sum"]}
{"id": "C21", "title": "Choice indexed mutators: panics and try_ versions", "statement": "try_remove_alternative / try_swap_with_alternative succeed exactly when the panicking versions do not panic (an alternative with that index exists) and return the same choice; removal deletes exactly that alternative and keeps the primary; swap is its own inverse.", "quantifier": "all choices and indices", "why_tests_cant": "The law ranges over all values and all user closures; tests fix a handful of closures and values.", "anchors": ["src/datatypes/choice.rs: remove_alternative, try_remove_alternative, swap_with_alternative, try_swap_with_alternative"]}
{"id": "C22", "title": "Choice filtering and deduplication", "statement": "filter_values keeps exactly the satisfying values in order; filter keeps the primary unconditionally and filters the alternatives; dedup keeps exactly the first occurrence of each value; dedup_by_key keeps the first value per key.", "quantifier": "all choices, predicates, key functions", "why_tests_cant": "The law ranges over all values and all user closures; tests fix a handful of closures and values.", "anchors": ["src/datatypes/choice.rs: filter, filter_values, dedup, dedup_by_key"]}
{"id": "C23", "title": "Choice flatten", "statement": "flatten concatenates all inner sequences in order when the primary is non-empty; it panics exactly when the primary's inner sequence is empty; try_flatten returns an error exactly then; sequence on Choice<Option> is Some of all values iff all are Some.", "quantifier": "all choices of sequences", "why_tests_cant": "The law ranges over all values and all user closures; tests fix a handful of closures and values.", "anchors": ["src/datatypes/choice.rs: flatten, try_flatten, flatten_sorted, sequence"]}
{"id": "C24", "title": "Validated accumulates every error in order", "statement": "Combining any number of validations with apply, lift2, lift3, sequence or collect yields Valid of the combined values if all are valid; otherwise Invalid with exactly the errors of all the invalid ones, left to right.", "quantifier": "all finite lists of validated values and combining functions", "why_tests_cant": "The law ranges over all values and all user closures; tests fix a handful of closures and values.", "anchors": ["src/datatypes/validated/core.rs: sequence, sequence_owned, collect, collect_owned", "src/datatypes/validated/traits.rs: Applicative"]}
{"id": "C25", "title": "Validated functor, applicative and monad laws", "statement": "fmap, apply and bind satisfy the functor, applicative and monad laws; owned versions agree with borrowed ones.", "quantifier": "all validated values and functions", "why_tests_cant": "The law ranges over all values and all user closures; tests fix a handful of closures and values.", "anchors": ["src/datatypes/validated/traits.rs: Functor, Applicative, Monad, Bifunctor"]}
{"id": "C26", "title": "Validated: collect agrees with sequence", "statement": "collect returns Valid exactly when every input is valid, as sequence does.", "quantifier": "all finite lists of validated values", "why_tests_cant": "The disagreement needs an invalid value carrying zero errors.", "anchors": ["src/datatypes/validated/core.rs: collect, sequence, invalid_many"]}
{"id": "C27", "title": "Validated semigroup / monoid", "statement": "combine is associative, empty() is a two-sided identity; the first valid value wins and otherwise errors are concatenated; combine_owned, mplus, mplus_owned agree.", "quantifier": "all triples of validated values", "why_tests_cant": "The law ranges over all values and all user closures; tests fix a handful of closures and values.", "anchors": ["src/datatypes/validated/traits.rs: Semigroup, Monoid, MonadPlus"]}
{"id": "C28", "title": "Validated Alternative / MonadPlus identities", "statement": "empty_alt is a two-sided identity of alt, and mzero is a two-sided identity of mplus and a zero of bind on both sides.", "quantifier": "all validated values", "why_tests_cant": "The law ranges over all values and all user closures; tests fix a handful of closures and values.", "anchors": ["src/datatypes/validated/traits.rs: Alternative, MonadPlus"]}
{"id": "C29", "title": "Validated conversions round trip", "statement": "Result -> Validated -> Result and Option -> Validated -> Option are identities; Validated -> Result never panics; ResultValidatedIso satisfies both isomorphism laws.", "quantifier": "all results, options, validated values", "why_tests_cant": "Failing cases need zero or several errors.", "anchors": ["src/error/convert.rs", "src/utils/error_utils.rs: WithError for Validated", "src/traits/iso.rs: ResultValidatedIso"]}
{"id": "C30", "title": "Maybe functor/applicative/monad laws", "statement": "Maybe's fmap/apply/bind/join satisfy all laws, owned versions agree, and Nothing is absorbing.", "quantifier": "all Maybe values and functions", "why_tests_cant": "The law ranges over all values and all user closures; tests fix a handful of closures and values.", "anchors": ["src/datatypes/maybe.rs: Functor, Applicative, Monad"]}
{"id": "C31", "title": "Maybe is isomorphic to Option", "statement": "to_option/from_option are mutually inverse and every Maybe operation corresponds to the Option operation of the same meaning; Alternative, MonadPlus, Semigroup-like laws hold.", "quantifier": "all values", "why_tests_cant": "The law ranges over all values and all user closures; tests fix a handful of closures and values.", "anchors": ["src/datatypes/maybe.rs: From<Option>, to_option, Alternative, MonadPlus"]}
{"id": "C32", "title": "Mapping the error of a Maybe leaves a present value alone", "statement": "Error-mapping operations on Just(x) keep x: only Nothing is affected.", "quantifier": "all Maybe values and error functions", "why_tests_cant": "The law ranges over all values and all user closures; tests fix a handful of closures and values.", "anchors": ["src/datatypes/maybe.rs: WithError::fmap_error"]}
{"id": "C33", "title": "Either functor/applicative/monad/bifunctor laws", "statement": "Right-biased fmap/apply/bind satisfy the laws; bimap satisfies identity/composition and decomposes into first and second; the first Left wins.", "quantifier": "all Either values and functions", "why_tests_cant": "The law ranges over all values and all user closures; tests fix a handful of closures and values.", "anchors": ["src/datatypes/either.rs: Functor, Applicative, Monad, Bifunctor"]}
{"id": "C34", "title": "Either Alternative / MonadPlus laws", "statement": "alt and mplus are associative with empty_alt/mzero as two-sided identities and agree with each other.", "quantifier": "all Either values", "why_tests_cant": "The law ranges over all values and all user closures; tests fix a handful of closures and values.", "anchors": ["src/datatypes/either.rs: Alternative, MonadPlus"]}
{"id": "C35", "title": "Id: functor, monad and comonad laws", "statement": "Id satisfies functor, applicative, monad laws and the comonad laws (extract/extend/duplicate).", "quantifier": "all values and functions", "why_tests_cant": "The law ranges over all values and all user closures; tests fix a handful of closures and values.", "anchors": ["src/datatypes/id.rs"]}
{"id": "C36", "title": "Either conversions and swaps", "statement": "from_result/to_result, from Option and swap-like conversions round trip; ResultEitherIso satisfies both isomorphism laws.", "quantifier": "all values", "why_tests_cant": "The law ranges over all values and all user closures; tests fix a handful of closures and values.", "anchors": ["src/datatypes/either.rs: from_result, to_result, to_option", "src/traits/iso.rs: ResultEitherIso"]}
{"id": "C37", "title": "Writer monad laws and log order", "statement": "For any monoid of logs, Writer's bind satisfies the monad laws, tell appends, logs appear in execution order, and run returns exactly the concatenation of all told logs.", "quantifier": "all writers, functions, log monoids, all finite programs", "why_tests_cant": "The law ranges over all values and all user closures; tests fix a handful of closures and values.", "anchors": ["src/datatypes/writer.rs"]}
{"id": "C38", "title": "State monad laws and state threading", "statement": "State's bind satisfies the monad laws observably (for every initial state), get/put/modify satisfy the state laws, apply threads the state left to right; put returns unit/ignores old state as documented.", "quantifier": "all state computations, functions, initial states", "why_tests_cant": "The law ranges over all values and all user closures; tests fix a handful of closures and values.", "anchors": ["src/datatypes/state.rs"]}
{"id": "C39", "title": "StateT satisfies the monad laws over a lawful base and threads state", "statement": "bind_with threads the updated state and satisfies the monad laws for any lawful base monad; to_state/from_state round trip.", "quantifier": "all StateT computations over any lawful base monad, all initial states", "why_tests_cant": "The law ranges over all values and all user closures; tests fix a handful of closures and values.", "anchors": ["src/transformers/state_t.rs"]}
{"id": "C40", "title": "StateT combine_with/apply thread the state of the first computation into the second", "statement": "Combining two stateful computations runs the second from the state left by the first, as composing them with bind would.", "quantifier": "all pairs of StateT computations and initial states", "why_tests_cant": "The law ranges over all values and all user closures; tests fix a handful of closures and values.", "anchors": ["src/transformers/state_t.rs: combine_with, apply, run_state"]}
{"id": "C41", "title": "Reader monad laws and environment handling", "statement": "Reader's bind satisfies the monad laws for every environment; ask/asks/local behave as environment access/modification: local(f, r) run in e equals r run in f(e), nested locals compose.", "quantifier": "all readers, functions, environments", "why_tests_cant": "The law ranges over all values and all user closures; tests fix a handful of closures and values.", "anchors": ["src/datatypes/reader.rs"]}
{"id": "C42", "title": "ReaderT monad laws over a lawful base", "statement": "ReaderT's bind_with satisfies the monad laws pointwise over any lawful base monad; lift ignores the environment.", "quantifier": "all ReaderT computations and environments", "why_tests_cant": "The law ranges over all values and all user closures; tests fix a handful of closures and values.", "anchors": ["src/transformers/reader_t.rs"]}
{"id": "C43", "title": "ReaderT::bind drops every value exactly once", "statement": "Running a computation built with the trait-level bind never drops the same intermediate value twice, for values owning heap data.", "quantifier": "all element types owning resources, all runs", "why_tests_cant": "Undefined behaviour may go unnoticed in tests with Copy types.", "anchors": ["src/transformers/reader_t.rs: Monad for ReaderT::bind"]}
{"id": "C44", "title": "Cont monad laws and call_cc", "statement": "Cont's bind satisfies the monad laws observably for every final continuation; call_cc's escape discards the rest of its body; apply runs the function computation first.", "quantifier": "all continuations computations, functions and final continuations", "why_tests_cant": "The law ranges over all values and all user closures; tests fix a handful of closures and values.", "anchors": ["src/datatypes/cont.rs"]}
{"id": "C45", "title": "ContT laws and lift", "statement": "ContT satisfies the monad laws; lift is a monad morphism: lift(return a) = return a and lift(m >>= f) = lift m >>= (lift . f).", "quantifier": "all ContT computations over any base monad", "why_tests_cant": "The law ranges over all values and all user closures; tests fix a handful of closures and values.", "anchors": ["src/transformers/cont_t.rs"]}
{"id": "C46", "title": "IO monad laws", "statement": "IO's fmap/bind/apply satisfy functor and monad laws up to the observable effect trace and result of running.", "quantifier": "all effectful programs and continuations", "why_tests_cant": "The law ranges over all values and all user closures; tests fix a handful of closures and values.", "anchors": ["src/datatypes/io.rs: fmap, bind, apply, pure"]}
{"id": "C47", "title": "IO is lazy", "statement": "Building an IO value with fmap/bind/etc. performs no effect; effects occur only on run, and each run performs them afresh.", "quantifier": "all IO programs and closures", "why_tests_cant": "Laziness is about when user closures execute; tests mostly use pure closures.", "anchors": ["src/datatypes/io.rs: fmap, bind"]}
{"id": "C48", "title": "IO combinators run effects in the documented order", "statement": "sequence, combine, apply, and composable variants run their parts in the documented order, each exactly once; sequence_composable runs all and collects all errors in order.", "quantifier": "all lists of IO programs", "why_tests_cant": "The law ranges over all values and all user closures; tests fix a handful of closures and values.", "anchors": ["src/datatypes/io.rs: sequence, combine, apply, sequence_composable"]}
{"id": "C49", "title": "IO panic containment", "statement": "try_get and recover turn any panic of the program into an Err / the fallback value, and never change a non-panicking result.", "quantifier": "all programs, including panicking ones at any point", "why_tests_cant": "The law ranges over all values and all user closures; tests fix a handful of closures and values.", "anchors": ["src/datatypes/io.rs: try_get, recover, recover_with"]}
{"id": "C50", "title": "IO from a future can be shared between threads", "statement": "An IO built from a future can be run by several threads concurrently: the future is awaited once and every runner obtains its value.", "quantifier": "all numbers of threads and all interleavings of their steps", "why_tests_cant": "Schedules are unbounded; tests cannot control the interleaving.", "anchors": ["src/datatypes/io.rs: new_async"]}
{"id": "C51", "title": "Memoizer computes each key at most once and all callers agree", "statement": "For any number of threads and any interleaving of get_or_compute and clear calls, every call returns f(key), and between clears f runs at most once per key.", "quantifier": "all thread counts, programs and schedules", "why_tests_cant": "Thread interleavings cannot be enumerated by tests.", "anchors": ["src/datatypes/wrapper/memoizer.rs: get_or_compute, clear"]}
{"id": "C52", "title": "Memoizer remains usable after a panicking computation", "statement": "If the function panics for one key, later calls for other keys still work.", "quantifier": "all functions, keys and schedules containing a panicking call", "why_tests_cant": "Requires a panic at a specific point while the lock is held.", "anchors": ["src/datatypes/wrapper/memoizer.rs: get_or_compute"]}
{"id": "C53", "title": "AsyncM laws", "statement": "Awaiting AsyncM's fmap/bind results satisfies the functor and monad laws, poll by poll, with the same effects; zip_with/apply await both sides together and return the combination of both results; recover_with maps a panic while awaiting to the default and changes nothing else.", "quantifier": "all async programs and continuations", "why_tests_cant": "The law ranges over all values and all user closures; tests fix a handful of closures and values.", "anchors": ["src/datatypes/async_monad.rs"]}
{"id": "C54", "title": "Lens laws and conditional set", "statement": "For a lens with lawful getter and setter, Lens::set/modify satisfy GetPut, PutGet, PutPut; set (which skips writing equal values) is observably the same as set_always; changing the view with fmap along an isomorphism preserves the laws.", "quantifier": "all lenses whose getter and setter are lawful and whose view type's == holds only between interchangeable values, all sources and values; all isomorphisms of the view", "why_tests_cant": "The law ranges over all values and all user closures; tests fix a handful of closures and values.", "anchors": ["src/datatypes/lens.rs"]}
{"id": "C55", "title": "Prism laws", "statement": "For lawful prisms modify acts on the focus of matching values and leaves all others unchanged, satisfies the functor laws, and set_if_different always yields the value built from the new focus, whether or not the source matched.", "quantifier": "all lawful prisms whose focus type's == holds only between interchangeable values, all values and functions", "why_tests_cant": "The law ranges over all values and all user closures; tests fix a handful of closures and values.", "anchors": ["src/datatypes/prism.rs"]}
{"id": "C56", "title": "IsoLens laws", "statement": "For an IsoLens built from a lawful isomorphism, get/set/modify satisfy the lens laws; set_focus/modify_focus change only the focus; composition preserves the laws.", "quantifier": "all isomorphisms, sources, values", "why_tests_cant": "The law ranges over all values and all user closures; tests fix a handful of closures and values.", "anchors": ["src/datatypes/iso_lens.rs"]}
{"id": "C57", "title": "IsoPrism laws", "statement": "An IsoPrism built from a lawful isomorphism between S and Option-like target satisfies the prism laws; composition preserves them.", "quantifier": "all isomorphisms, values", "why_tests_cant": "The law ranges over all values and all user closures; tests fix a handful of closures and values.", "anchors": ["src/datatypes/iso_prism.rs"]}
{"id": "C58", "title": "Iso composition and inverse", "statement": "Composing lawful isos gives a lawful iso, inverse swaps directions and is involutive, modify satisfies functor laws, verify_laws returns true exactly when both round trips hold at the given points.", "quantifier": "all isomorphisms and values; verify_laws for types whose == holds exactly between interchangeable values", "why_tests_cant": "The law ranges over all values and all user closures; tests fix a handful of closures and values.", "anchors": ["src/traits/iso.rs: ComposedIso, InverseIso, IsoExt"]}
{"id": "C59", "title": "Sum/Product wrappers are monoids", "statement": "combine of Sum/Product is associative with identity empty() whenever the element arithmetic is; with fixed-width overflow-checked arithmetic no grouping panics unless every grouping does.", "quantifier": "all triples of values of the element type", "why_tests_cant": "The law ranges over all values and all user closures; tests fix a handful of closures and values.", "anchors": ["src/datatypes/wrapper/sum.rs", "src/datatypes/wrapper/product.rs"]}
{"id": "C60", "title": "Min/Max wrappers are monoids", "statement": "combine picks the smaller/larger value, is associative, commutative and idempotent, and empty() is its identity.", "quantifier": "all values of a totally ordered type", "why_tests_cant": "The law ranges over all values and all user closures; tests fix a handful of closures and values.", "anchors": ["src/datatypes/wrapper/min.rs", "src/datatypes/wrapper/max.rs"]}
{"id": "C61", "title": "First/Last wrappers are monoids", "statement": "First keeps the first present value, Last the last present value; combine is associative with the empty wrapper as identity.", "quantifier": "all triples / lists of wrapped options", "why_tests_cant": "The law ranges over all values and all user closures; tests fix a handful of closures and values.", "anchors": ["src/datatypes/wrapper/first.rs", "src/datatypes/wrapper/last.rs"]}
{"id": "C62", "title": "Predicate algebra", "statement": "Predicate and/or/not/diff satisfy the Boolean-algebra laws pointwise, and combine/empty form a monoid.", "quantifier": "all predicates and points", "why_tests_cant": "The law ranges over all values and all user closures; tests fix a handful of closures and values.", "anchors": ["src/datatypes/wrapper/predicate.rs"]}
{"id": "C63", "title": "Repetition helpers of Semigroup/Monoid agree", "statement": "combine_n(n) and combine_n_owned(n) both combine exactly n copies; repeat and power give n copies (identity for 0).", "quantifier": "all semigroups, values, counts n", "why_tests_cant": "The law ranges over all values and all user closures; tests fix a handful of closures and values.", "anchors": ["src/traits/semigroup.rs: combine_n, combine_n_owned", "src/traits/monoid.rs: repeat, power"]}
{"id": "C64", "title": "Folding helpers of Semigroup/Monoid agree", "statement": "combine_all, combine_all_values, combine_values, mconcat all equal the left-to-right combination of their inputs and agree with each other; splitting the input and combining the parts gives the same result.", "quantifier": "all monoids, all finite lists", "why_tests_cant": "The law ranges over all values and all user closures; tests fix a handful of closures and values.", "anchors": ["src/traits/semigroup.rs: combine_all, combine_all_values, combine_values", "src/traits/monoid.rs: combine_all, mconcat"]}
{"id": "C65", "title": "Standard-type semigroup and monoid instances are lawful", "statement": "combine for Vec, String, Option, tuples, HashMap, BTreeMap and sets is associative; the map instances combine values key-wise and keep keys of both sides; combine_owned agrees.", "quantifier": "all values of these types; where elements are themselves combined, for every associative combine of the elements", "why_tests_cant": "The law ranges over all values and all user closures; tests fix a handful of closures and values.", "anchors": ["src/traits/semigroup.rs: impls", "src/traits/monoid.rs: impls"]}
{"id": "C66", "title": "Foldable derived operations", "statement": "For every lawful Foldable, length, find, all, any, contains, maximum, minimum, is_sorted, to_vec, reduce, fold_map computed by the default methods equal the list functions on the folded sequence.", "quantifier": "all foldable containers and predicates; maximum, minimum and is_sorted for every total order comparison", "why_tests_cant": "The law ranges over all values and all user closures; tests fix a handful of closures and values.", "anchors": ["src/traits/foldable.rs: Foldable, FoldableExt"]}
{"id": "C67", "title": "MonadPlus / Alternative laws for Option, Result and Vec", "statement": "mzero/empty_alt is a two-sided identity and mplus/alt is associative for the standard-type instances; catch/throw satisfy the MonadError laws.", "quantifier": "all values", "why_tests_cant": "The law ranges over all values and all user closures; tests fix a handful of closures and values.", "anchors": ["src/traits/monad_plus.rs", "src/traits/alternative.rs", "src/traits/monad_error.rs"]}
{"id": "C68", "title": "ComposableError context order", "statement": "Contexts added with with_context are reported most recent first by context() and error_chain; core error and code are unaffected; map_core keeps contexts; any number of contexts.", "quantifier": "all sequences of contexts, all core errors", "why_tests_cant": "Sequences are unbounded (inline storage boundary included).", "anchors": ["src/error/types.rs: ComposableError"]}
{"id": "C69", "title": "ErrorPipeline adds contexts only to the error they were attached to", "statement": "Contexts attached before a recovery never appear on an error raised after that recovery; on Ok values contexts have no effect; finish returns the same Ok value.", "quantifier": "all pipelines (finite sequences of stages)", "why_tests_cant": "Needs a particular sequence of stages.", "anchors": ["src/error/context.rs: ErrorPipeline"]}
{"id": "C70", "title": "Error sequencing helpers", "statement": "sequence/traverse return the first error in order or all values in order; traverse_validated / collect_errors return all errors in order; agreement on success between the two families.", "quantifier": "all finite lists and functions", "why_tests_cant": "The law ranges over all values and all user closures; tests fix a handful of closures and values.", "anchors": ["src/utils/error_utils.rs: sequence, traverse, traverse_validated", "src/error/convert.rs: collect_errors"]}
{"id": "C71", "title": "Error conversions", "statement": "Conversions among Result, Either, Validated and core/composable errors preserve the success value and the (first) error; composing conversion and its inverse is the identity on single-error values.", "quantifier": "all values", "why_tests_cant": "The law ranges over all values and all user closures; tests fix a handful of closures and values.", "anchors": ["src/error/convert.rs"]}
{"id": "C72", "title": "Transform and pipeline helpers", "statement": "compose_all/pipe/pipeline_option/pipeline_result and the compose!/pipe! macros equal (Kleisli) composition of their functions in the documented order; the first None/Err short-circuits; filter_map, zip_with, fan_out, sequence_options, sequence_results and fold_with produce exactly the elements, in order, that their documentation promises.", "quantifier": "all lists of functions and inputs", "why_tests_cant": "The law ranges over all values and all user closures; tests fix a handful of closures and values.", "anchors": ["src/utils/hkt_utils.rs", "src/utils/transform_utils.rs"]}
{"id": "C73", "title": "FunctionCategory is a category", "statement": "compose is associative with identity as unit, pointwise for every input.", "quantifier": "all composable functions and inputs", "why_tests_cant": "The law ranges over all values and all user closures; tests fix a handful of closures and values.", "anchors": ["src/category/function_category.rs", "src/traits/category.rs"]}
{"id": "C74", "title": "FunctionCategory is an arrow", "statement": "first, second, split (***) and fan-out (&&&) satisfy the arrow laws pointwise.", "quantifier": "all functions and inputs", "why_tests_cant": "The law ranges over all values and all user closures; tests fix a handful of closures and values.", "anchors": ["src/category/function_category.rs", "src/traits/arrow.rs"]}
{"id": "C75", "title": "try_value reports absence instead of panicking", "statement": "try_value / try_into_value return None for a value without content and Some(x) exactly when value() returns x; they never panic.", "quantifier": "all values of Option, Result, Maybe, Either, Choice, Validated", "why_tests_cant": "The law ranges over all values and all user closures; tests fix a handful of closures and values.", "anchors": ["src/traits/identity.rs: try_value, try_into_value"]}
{"id": "C76", "title": "Option, Result and Vec are lawful applicatives", "statement": "fmap, pure, apply, lift2, lift3 of Option, Result and Vec satisfy the functor and applicative laws and agree with each other; Vec enumerates combinations in lexicographic argument order; the owned lift3 agrees.", "quantifier": "all values and functions", "why_tests_cant": "The law ranges over all values and all user closures; tests fix a handful of closures and values.", "anchors": ["src/traits/functor.rs: impls", "src/traits/applicative.rs: impls", "src/traits/pure.rs"]}
{"id": "C77", "title": "Option and Result are lawful monads; derived monad operations", "statement": "bind/join of Option and Result satisfy the monad laws; map_and_pure is fmap; try_bind substitutes the default exactly when the function reports an error and never for an absent value.", "quantifier": "all values and functions", "why_tests_cant": "The law ranges over all values and all user closures; tests fix a handful of closures and values.", "anchors": ["src/traits/monad.rs"]}
{"id": "C78", "title": "Fallible mapping helpers", "statement": "try_map_or / try_map_or_else of Option, Result, Vec agree with the trait defaults, keep the shape and use the default only on an Err; filter_map keeps exactly the mapped Some results in order.", "quantifier": "all values and functions", "why_tests_cant": "The law ranges over all values and all user closures; tests fix a handful of closures and values.", "anchors": ["src/traits/functor.rs: FunctorExt"]}
{"id": "C79", "title": "Sequencing and replacing", "statement": "sequence_right / sequence_left run both sides and keep the right / left value; replace and void keep the shape and put the given value everywhere.", "quantifier": "all values of every type with the method; for the laws, every lawful applicative or functor", "why_tests_cant": "The law ranges over all values and all user closures; tests fix a handful of closures and values.", "anchors": ["src/traits/applicative.rs: sequence_right, sequence_left", "src/traits/functor.rs: replace, void"]}
{"id": "C80", "title": "Fallible runners agree with the plain runners", "statement": "try_run_state / try_eval_state / try_exec_state / try_run_reader (with and without context) return exactly what the plain runner returns on success, and on failure return the same error as core error with exactly the given context attached and no code; the final state is the same; map_error changes only the error.", "quantifier": "all computations, start states, environments, contexts", "why_tests_cant": "quantifies over all stored state functions", "anchors": ["src/datatypes/state.rs", "src/transformers/state_t.rs", "src/transformers/reader_t.rs"]}
{"id": "C81", "title": "Thunks run once per evaluation, in order", "statement": "Building a thunk runs nothing; each evaluate runs the computation exactly once, afresh; the evaluate helpers run thunk, then the other thunk, then the closure, stop at the first panic, and filter_evaluate keeps the value exactly when the predicate accepts it.", "quantifier": "all thunks and closures", "why_tests_cant": "The law ranges over all computations with side effects and panics; tests fix a handful.", "anchors": ["src/datatypes/wrapper/thunk.rs", "src/traits/evaluate.rs"]}
{"id": "C82", "title": "Validated accessors tell apart values and errors", "statement": "unwrap/value return the value exactly for a valid result and panic exactly otherwise; unwrap_invalid is the mirror image; into_value, into_error_payload, error_payload, to_option, errors and unwrap_or agree with them; recover_all_at_once calls the handler with all errors exactly when invalid.", "quantifier": "all validations, handlers and defaults", "why_tests_cant": "The law ranges over all values and all user closures; tests fix a handful of closures and values.", "anchors": ["src/datatypes/validated/core.rs"]}
{"id": "C83", "title": "Asynchronous mapping of validations", "statement": "Mapping, chaining and recovering a validation asynchronously gives the same result as the synchronous method with the same closure when the futures are ready at once; mapping errors asynchronously gives one result per error, in the order of the errors, whatever the order in which the futures finish; a valid value never starts an error future and vice versa; the asynchronous methods obey the laws of the synchronous ones.", "quantifier": "all validations, closures, futures, interleavings with the environment and polling orders", "why_tests_cant": "Ranges over all interleavings of unboundedly many futures; tests run one executor on a few futures.", "anchors": ["src/datatypes/validated/core.rs"]}
{"id": "C84", "title": "Any number of updates can be chained", "statement": "Applying any number of operations one after the other to a persistent vector never fails because of the internal version counter: every history gives the same contents and results as with an unbounded counter.", "quantifier": "all histories of any length, all element types", "why_tests_cant": "The 32-bit counter overflows only after 2^32 operations, far beyond any test.", "anchors": ["src/pvec/core.rs"]}
{"id": "C85", "title": "In-place access changes exactly what is handed out", "statement": "A loop over the mutable iterator of a Maybe, Id, Either (either side) or Validated (value or errors) is given each element once, in order, and then nothing however often it asks; a loop that overwrites what it is given has the effect of the corresponding map on the elements visited and leaves everything else as it was; left_mut panics exactly on the other side; replacing the error buffer changes the errors only, and an invalid value keeps at least one error.", "quantifier": "all values, all numbers of requests, all update functions", "why_tests_cant": "Ranges over every number of next calls and every update function; tests make one full pass with one function.", "anchors": ["src/datatypes/maybe.rs", "src/datatypes/either.rs", "src/datatypes/id.rs", "src/datatypes/validated/iter.rs", "src/datatypes/validated/core.rs"]}
{"id": "C86", "title": "Lifting helpers agree with the applicative", "statement": "combine_with, pair_with and lift_other give, in every lawful applicative, the result of lifting the arguments separately and combining them with apply.", "quantifier": "all lawful applicatives, values and functions", "why_tests_cant": "Quantifies over all type constructors with a lawful pure/apply.", "anchors": ["src/traits/pure.rs"]}
{"id": "C87", "title": "Contravariant helpers obey the contravariant laws", "statement": "For every lawful contravariant functor: a functor fed a constant input is unaffected by any further change of input; composing through a conversion equals changing the input with that conversion; the identity conversion changes nothing. The identity natural transformation commutes with every map.", "quantifier": "all lawful contravariant functors, functions and values", "why_tests_cant": "The crate has no instance to test; the law quantifies over all instances.", "anchors": ["src/traits/contravariant_functor.rs", "src/traits/natural_transformation.rs"]}
{"id": "C88", "title": "Maybe runs closures and iterators exactly when needed, and shrinks to an end", "statement": "unwrap_or_else runs the fallback exactly when there is no value; tap shows the value to the closure once and returns the same Maybe; collecting pulls exactly one element; try_unwrap and to_standard_result fail exactly where unwrap panics, with the documented error; shrinking a Maybe terminates whenever shrinking its elements does, offers Nothing last and never offers a value as simpler than itself.", "quantifier": "all values, closures with arbitrary effects or panics, iterators and element shrinkers", "why_tests_cant": "Effects, panics and shrinkers are arbitrary; tests fix a few.", "anchors": ["src/datatypes/maybe.rs"]}
{"id": "C89", "title": "Printed forms tell values apart", "statement": "Different vector errors and IO errors print differently; wrappers print their kind and their value's text; a Choice prints its elements in order so that it can be read back when no element's text contains a separator; an application error prints its message and context so that both can be read back, and so does a parse error of the example parser for its position, message and hints; a vector's debug form depends on its contents alone and shows all of them.", "quantifier": "all values and all ways of printing elements", "why_tests_cant": "Injectivity over all values; tests compare a few strings.", "anchors": ["src/pvec/error.rs", "src/pvec/core.rs", "src/datatypes/maybe.rs", "src/datatypes/io.rs", "src/datatypes/choice.rs", "src/datatypes/wrapper/first.rs", "src/datatypes/wrapper/last.rs", "src/datatypes/wrapper/sum.rs", "src/datatypes/wrapper/product.rs", "src/datatypes/wrapper/min.rs", "src/datatypes/wrapper/max.rs", "src/utils/error_utils.rs", "examples/advanced_parser.rs:18"]}
{"id": "C90", "title": "Lazy error contexts are built only when an error occurs", "statement": "A message given to context! / LazyContext is built exactly when there is an error to attach it to: never on success, once per error otherwise, in the order of the calls; a pipeline reports exactly the messages it built.", "quantifier": "all results, all pipelines, all message generators with effects or panics", "why_tests_cant": "The documented laziness is about the absence of effects on every successful path; tests look at returned values.", "anchors": ["src/error/types.rs", "src/error/macros.rs", "src/error/context.rs", "src/datatypes/state.rs", "src/transformers/state_t.rs", "src/transformers/reader_t.rs"]}
{"id": "C91", "title": "Vectors are ordered like the sequences they hold", "statement": "Comparing two vectors is a total order that agrees with equality and orders them lexicographically by contents; equal vectors hash alike, and so do vectors with the same contents.", "quantifier": "all element types with a total order, all vectors", "why_tests_cant": "Order laws range over all triples of vectors, and the representation (small, tree, change counter) enters the derived comparison.", "anchors": ["src/pvec/core.rs", "src/pvec/tree.rs", "src/pvec/node.rs"]}
{"id": "C92", "title": "Closures are called once per element, in order", "statement": "Every operation that takes a closure calls it once for each element, front to back (back to front for right folds), each call seeing the effects of the one before, and stops with the first panic; find, any, all, traverse, recover_all and pipelines stop at exactly the deciding element and call nothing after it; products call every combination once, in a fixed order; Choice::bind makes no second call when the first gives nothing; bind_lazy makes only the calls needed for the items taken.", "quantifier": "all element lists, all closures with effects or panics, all vectors however built", "why_tests_cant": "Call counts and orders are invisible in returned values, and panics in the middle of an operation are an unbounded family of cases.", "anchors": ["src/pvec/core.rs", "src/pvec/traits.rs", "src/pvec/iter.rs", "src/datatypes/choice.rs", "src/traits/functor.rs", "src/traits/applicative.rs", "src/traits/foldable.rs", "src/utils/error_utils.rs", "src/utils/hkt_utils.rs", "src/datatypes/validated/core.rs", "src/datatypes/validated/traits.rs"]}
{"id": "C93", "title": "Containers are compared, ordered and hashed by their contents", "statement": "For Maybe, Either, Validated, Writer, Choice, Id, Min, Max, Sum, Product, First and Last: equality and order are those of the contents and agree with each other; the order is total whenever the elements' is; equal values hash alike and different values are told apart; converting between types and mapping an increasing function keeps the order; Min and Max combine to the least and greatest value.", "quantifier": "all element types with a total (or partial) order, all values", "why_tests_cant": "Order laws quantify over triples of values and over all element orders, including partial ones; conversions must be compared on all pairs.", "anchors": ["src/datatypes/maybe.rs:233", "src/datatypes/either.rs:262", "src/datatypes/validated/core.rs:137", "src/datatypes/writer.rs:196", "src/datatypes/choice.rs:196", "src/datatypes/id.rs:246", "src/datatypes/wrapper/min.rs:145", "src/datatypes/wrapper/max.rs:149", "src/datatypes/wrapper/first.rs:173", "src/utils/error_utils.rs:561"]}
{"id": "C94", "title": "Reading, updating and growing a vector takes logarithmic work", "statement": "The number of nodes visited by a read, an update or an append is bounded by a logarithm of the vector's length, whatever sequence of operations made the vector.", "quantifier": "all vectors, all lengths, all indices, all histories of collecting, appending, prepending and joining", "why_tests_cant": "Tests measure particular lengths on particular machines; growth of the cost over all lengths and histories cannot be observed from finitely many runs.", "anchors": ["src/pvec/mod.rs:4-6", "src/pvec/core.rs:25-26", "src/pvec/node.rs", "src/pvec/tree.rs"]}
{"id": "C95", "title": "A changed vector shares its contents with the old one", "statement": "Adding, updating, removing, splitting, joining or inserting copies at most a fixed number of elements, the same for vectors of every length: all other elements are shared with the original vector. Collecting copies each element a known number of times.", "quantifier": "all vectors made by the public operations, all lengths, all indices, all elements", "why_tests_cant": "A bound that holds for every length and every history cannot be seen from finitely many runs; equality tests cannot see copies at all.", "anchors": ["src/pvec/mod.rs", "src/pvec/core.rs", "src/pvec/tree.rs", "src/pvec/node.rs", "src/pvec/chunk.rs"]}
{"id": "C96", "title": "An IO can be run from any thread", "statement": "Running an IO gives the same value and the same effects whether it is run directly or with run_async, from an ordinary thread, from an asynchronous task or from a thread of the blocking pool, and every later run of an IO made from a future gives the same value again without running the future a second time.", "quantifier": "all IOs (from closures, futures and delays), all futures and effects, all sequences of runs from all kinds of threads", "why_tests_cant": "The outcome depends on the kind of thread of the first run and on all runs before; the project's tests only ever start such an IO in one way.", "anchors": ["src/datatypes/io.rs:658-663", "src/datatypes/io.rs:689-699", "src/datatypes/io.rs:769-796", "src/datatypes/io.rs:1352-1360"]}
{"id": "C97", "title": "Any number of asynchronous IOs can be run at once", "statement": "However many IOs made from futures are run at the same time with run_async, and in whatever order their steps happen, every run returns once its future has finished.", "quantifier": "all numbers of simultaneous runs, all sizes of the runtime's pool of blocking threads, all interleavings", "why_tests_cant": "Whether the runs block each other depends on the interleaving and on there being as many runs as pool threads (512 by default), which no test reaches.", "anchors": ["src/datatypes/io.rs:689-699", "src/datatypes/io.rs:778-795"]}
{"id": "C98", "title": "Documented laws of the Memoizer, also for functions that have effects, panic or call it", "statement": "Transparency: the first call for a key gives the function's value and performs its effects once. Idempotence and consistency: every later call for the key gives the stored value and runs nothing, until clear. Commutativity: calls for different keys may be exchanged. The function given may itself ask the same Memoizer for other keys, as recursive functions do.", "quantifier": "all keys, values, stored contents, all functions with effects, panics and nested calls, all sequences of calls by one thread", "why_tests_cant": "The laws range over all functions and contents; a nested call that blocks would hang the test suite, so it is not tested.", "anchors": ["src/datatypes/wrapper/memoizer.rs:27-45", "src/datatypes/wrapper/memoizer.rs:197-217", "src/datatypes/wrapper/memoizer.rs:254-257"]}
{"id": "C99", "title": "Serializing a value and reading it back gives an equal value", "statement": "With the serde feature, writing a value of Id, Min, Max, Sum, Product, First, Last, Maybe, Either, Validated, Writer or Choice to JSON and reading it back gives an equal value, whenever its contents do; different values are written differently; fields are found by name in any order.", "quantifier": "all values, all nestings of these types with integers, 64-bit floats, booleans, strings, unit, Option and Vec, all content types with their own reading and writing", "why_tests_cant": "The tests round-trip a few Validated values only; which nestings are ambiguous depends on all combinations of types.", "anchors": ["src/datatypes/id.rs:248", "src/datatypes/maybe.rs:234", "src/datatypes/either.rs:263", "src/datatypes/validated/core.rs:138", "src/datatypes/writer.rs:197", "src/datatypes/choice.rs:195", "src/datatypes/wrapper/min.rs:147", "src/datatypes/wrapper/max.rs:151", "src/datatypes/wrapper/sum.rs:192", "src/datatypes/wrapper/product.rs:131", "src/datatypes/wrapper/first.rs:174", "src/datatypes/wrapper/last.rs:176"]}
{"id": "C100", "title": "The random test generators can produce every value", "statement": "With the quickcheck feature, the generators of Id, Maybe, Either, Validated, Writer and Choice can produce every value of their type whenever the generators of the contents can; those of State, Reader, Cont and IO produce computations of every kind.", "quantifier": "all generators of contents, all states of the generator, all values", "why_tests_cant": "A test that draws values sees only what was drawn; a value that can never be drawn leaves no trace, and every property test silently skips it.", "anchors": ["src/datatypes/id.rs:830", "src/datatypes/maybe.rs:1491", "src/datatypes/either.rs:1357", "src/datatypes/validated/traits.rs:970", "src/datatypes/writer.rs:1226", "src/datatypes/choice.rs:2106", "src/datatypes/state.rs:1281", "src/datatypes/reader.rs:624", "src/datatypes/cont.rs:739", "src/datatypes/io.rs:1501"]}
{"id": "C101", "title": "All ways of making, reading and combining a value agree", "statement": "A value put into Id, Min, Max, Sum, Product, First, Last, Maybe, Either, Writer, Choice or PersistentVector by any of its constructors is what each accessor (value, into_value, unwrap, unwrap_or, as_ref, conversion to Option, iteration) gives back; an accessor panics, gives None, or gives the default exactly when nothing is held. The consuming forms of apply, lift2 and lift3 give what the borrowing forms give. The cache policy given to a vector changes nothing.", "quantifier": "all contents, all constructors, all functions", "why_tests_cant": "Each accessor is tested on one or two values; agreement of all of them on all contents is not.", "anchors": ["src/datatypes/id.rs:277", "src/datatypes/maybe.rs:582", "src/datatypes/maybe.rs:932", "src/datatypes/either.rs:898", "src/datatypes/wrapper/min.rs:416", "src/datatypes/wrapper/first.rs:377", "src/datatypes/writer.rs:450", "src/pvec/core.rs:487", "src/pvec/traits.rs:18", "src/error/types.rs:338"]}
{"id": "C102", "title": "What is built from an iterator depends only on the items it yields", "statement": "Validated::invalid_many, Validated::invalid_vec, Choice::new, filter_map_collect and filter_map give the result for the sequence of items the iterator yields, whatever size estimate the iterator gives as long as the estimate is right; and lift2/lift3 on Vec give all combinations whenever these fit in memory. None of them fails for a result that fits.", "quantifier": "all iterators with right size estimates at every point, all item limits of the machine, all functions", "why_tests_cant": "Tests use vectors, whose estimate is exact; an iterator over a huge range of which few items are kept needs an estimate far from the truth.", "anchors": ["src/datatypes/validated/core.rs:697", "src/datatypes/validated/core.rs:774", "src/datatypes/choice.rs:242", "src/utils/categorical_utils.rs:461", "src/utils/hkt_utils.rs:59", "src/traits/applicative.rs:903", "src/traits/applicative.rs:921"]}
{"id": "C103", "title": "Computations that are built first and run later call their closures in order, once per run, and not before", "statement": "Building a State, StateT, Reader, ReaderT or Cont with any of its methods calls none of the closures given to it. Each run carries out the steps in the order in which they were written (the function's side of an apply before the value's), calls each closure once for each time its step is reached, stops at the first panic or error, and starts afresh: nothing is remembered from an earlier run. The monad laws hold including these effects. Lens and Prism operations call the getter or preview, the modifier and the setter or review at most once each.", "quantifier": "all programs made of these operations, all closures including those with side effects and those that panic, all states, environments and final continuations, any number of runs", "why_tests_cant": "The tests use pure closures on single values, with which the order, the number and the time of the calls cannot be seen.", "anchors": ["src/datatypes/state.rs:596", "src/datatypes/state.rs:708", "src/datatypes/state.rs:827", "src/transformers/state_t.rs:338", "src/transformers/state_t.rs:415", "src/transformers/state_t.rs:473", "src/transformers/state_t.rs:629", "src/datatypes/reader.rs:304", "src/datatypes/reader.rs:563", "src/transformers/reader_t.rs:706", "src/transformers/reader_t.rs:982", "src/transformers/cont_t.rs:172", "src/transformers/cont_t.rs:256", "src/transformers/cont_t.rs:314", "src/datatypes/lens.rs:563", "src/datatypes/prism.rs:743"]}
{"id": "C104", "title": "Composed functions, predicates and isomorphisms call their closures in a fixed order, once each, stopping at a panic", "statement": "Running a function put together with compose, first, second, split, combine_morphisms, both, when, then_if, sequence, compose!, pipe! or the helper functions calls each closure it reaches in the order of the data (left part of a pair before the right) and stops at the first panic. Without conditions each closure is called exactly once, in the order written (both calls its one closure twice). union, intersection and diff of predicates ask the left side first and the right side only if the answer depends on it. A composed isomorphism calls the forwards in order and the backwards in reverse order; verify_laws makes exactly two round trips. With closures that have effects the category laws, the distribution of first over composition, De Morgan's laws and the laws of inverses still hold; laws that change the order of the calls (first of one and second of another, commuting predicates) do not. compose! and pipe! evaluate their arguments in the order written, when the function is built.", "quantifier": "all terms built from these operations, all closures including those with side effects and those that panic, all inputs", "why_tests_cant": "The tests compose pure closures, with which neither the order nor the number of calls can be seen, and they cannot range over all ways of nesting the operations.", "anchors": ["src/category/function_category.rs:149", "src/category/function_category.rs:195", "src/category/function_category.rs:267", "src/category/function_category.rs:323", "src/category/function_category.rs:393", "src/category/function_category.rs:451", "src/category/function_category.rs:481", "src/datatypes/wrapper/predicate.rs:206", "src/datatypes/wrapper/predicate.rs:295", "src/traits/iso.rs:348", "src/traits/iso.rs:653"]}
{"id": "C105", "title": "Closures given to operations on a single value are called exactly when they are needed, and only once", "statement": "For Maybe, Option, Result, Either, Validated, Id and ErrorPipeline: the closure of fmap, bind (and_then), filter, tap, fmap_or and the like is called exactly once if there is a value and not at all otherwise; the closure of apply, lift2 and lift3 exactly once if all arguments hold values; the closure of fmap_error, fmap_left, map_error_to, catch, recover and unwrap_or_else exactly once (fmap_error of Validated: once per error, front to back) if there is a failure and not at all otherwise; bimap calls exactly the closure of the side that is there; try_map_or_else calls the second closure only with the error of the first. If a closure panics nothing else is called. The laws of functors and monads hold with these effects. Writer calls its closures once, combining logs before the function of apply, lift2 and lift3 and after the function of bind; its laws hold if combining has no effects. The exception is Maybe::fmap_error, which calls its closure when there is a value (see C32).", "quantifier": "all values, all closures including those with side effects and those that panic, all states of the outside world", "why_tests_cant": "The tests use pure closures, with which a call too many or an unneeded call cannot be seen, and they cannot range over all effects.", "anchors": ["src/datatypes/maybe.rs:556", "src/datatypes/maybe.rs:788", "src/datatypes/maybe.rs:1005", "src/traits/functor.rs:505", "src/traits/functor.rs:594", "src/traits/monad.rs:272", "src/traits/monad_error.rs:255", "src/datatypes/either.rs:810", "src/datatypes/either.rs:1030", "src/datatypes/validated/core.rs:283", "src/datatypes/validated/traits.rs:366", "src/datatypes/validated/traits.rs:590", "src/datatypes/id.rs:414", "src/datatypes/writer.rs:592", "src/datatypes/writer.rs:1004", "src/error/context.rs:241"]}
{"id": "C106", "title": "By-value operations copy nothing, borrowing operations copy exactly what they keep", "statement": "An operation that takes its arguments by value (the _owned methods, From and into_iter conversions, collect, monoid::repeat and power, and so on) never calls Clone on them: with any Clone, also one that panics, it does what it would do without. An operation that borrows its arguments copies exactly what its result keeps of them: the failure that is handed on, the value that is handed on, the alternative that is chosen, the errors that are accumulated, the values of a combined list, each exactly once, front to back, and nothing that is not kept.", "quantifier": "all values, all closures and all Clone implementations including those with effects, those that panic and those that answer something else, all states of the outside world", "why_tests_cant": "The tests use types whose clone has no visible effect, so an additional or missing copy cannot be seen by them.", "anchors": ["src/traits/functor.rs:614", "src/traits/functor.rs:626", "src/traits/applicative.rs:737", "src/traits/applicative.rs:835", "src/traits/applicative.rs:945", "src/traits/monad.rs:317", "src/traits/monad.rs:378", "src/traits/monad_error.rs:255", "src/traits/monad_plus.rs:131", "src/traits/pure.rs:181", "src/traits/pure.rs:384", "src/traits/semigroup.rs:214", "src/traits/semigroup.rs:353", "src/traits/monoid.rs:267", "src/traits/foldable.rs:339", "src/traits/foldable.rs:529", "src/datatypes/maybe.rs:906", "src/datatypes/either.rs:810", "src/datatypes/either.rs:885", "src/datatypes/validated/traits.rs:366", "src/datatypes/validated/traits.rs:491", "src/datatypes/validated/core.rs:1064", "src/datatypes/validated/core.rs:1386", "src/datatypes/choice.rs:1479", "src/datatypes/choice.rs:1512", "src/datatypes/choice.rs:1717", "src/datatypes/choice.rs:2087", "src/datatypes/writer.rs:793", "src/datatypes/wrapper/min.rs:304"]}
{"id": "C107", "title": "The parser combinators of the parser example find all parses in order, repeat first parse after first parse, and return", "statement": "In examples/advanced_parser.rs: satisfy, item and sequence find exactly the one matching beginning of the input. p.or(q) gives all parses of p and then all of q; and_then, map, apply and skip give, for every parse of the first in order, the parses of what follows; label changes nothing. They obey the laws of a monad with alternatives, parse for parse. many repeats the first parse until there is none and gives that one list; many1, optional, sep_by, sep_by1, chainl1 and between give what this makes of them, with chains grouped to the left and a separator that no element follows left unread. What a parser leaves is always an end of its input. Every parser returns whatever the input.", "quantifier": "all item types, all parsers (any number of parses, also ones that run for ever), all functions, all inputs", "why_tests_cant": "The example has no tests, its demo parses a handful of texts with parsers that find at most one parse; a parser that runs for ever would hang a test instead of failing it.", "anchors": ["examples/advanced_parser.rs:111", "examples/advanced_parser.rs:124", "examples/advanced_parser.rs:141", "examples/advanced_parser.rs:158", "examples/advanced_parser.rs:173", "examples/advanced_parser.rs:193", "examples/advanced_parser.rs:205", "examples/advanced_parser.rs:213", "examples/advanced_parser.rs:234", "examples/advanced_parser.rs:254", "examples/advanced_parser.rs:269", "examples/advanced_parser.rs:302", "examples/advanced_parser.rs:320", "examples/advanced_parser.rs:339"]}
{"id": "C108", "title": "The SQL parser of the parser example reads exactly the queries of its grammar", "statement": "sql_query_parser of examples/advanced_parser.rs returns for every text. A text that begins with a SELECT, INSERT or UPDATE query of the grammar, in any letter case and with any white space, followed by the end or by a character that can continue nothing, is read as this query and nothing else (twice, if one column is selected), and what follows is left. A text has at most one reading as a query. Nothing but such queries is found; in particular a WHERE is read with the conditions that follow it or not at all.", "quantifier": "all texts, all queries, all tables of alphanumeric and white characters beyond ASCII that share no character", "why_tests_cant": "The example prints the results for a few well-formed texts; that nothing else is accepted, that every spelling is accepted and that the parser always returns are statements about all texts.", "anchors": ["examples/advanced_parser.rs:395", "examples/advanced_parser.rs:400", "examples/advanced_parser.rs:407", "examples/advanced_parser.rs:427", "examples/advanced_parser.rs:446", "examples/advanced_parser.rs:455", "examples/advanced_parser.rs:464", "examples/advanced_parser.rs:484", "examples/advanced_parser.rs:500", "examples/advanced_parser.rs:519", "examples/advanced_parser.rs:544"]}
{"id": "C109", "title": "What the documentation gives in place of a deprecated operation does what the operation did", "statement": "For every operation marked deprecated, the replacement named by MIGRATION_v0.11.0.md, by the migration examples or by the note of the deprecation gives the same result, panics included: for Choice has_alternatives, to_vec, find_first, iter_alternatives, dedup, dedup_by_key, fold, to_map_with_key, add_alternatives, remove_alternative, swap_with_alternative, filter, fmap_alternatives, flatten_sorted and bind_lazy; value, into_value and try_value of Identity for every type; to_validated, to_either and bimap of ResultExt; error and error_with_context.", "quantifier": "all choices, predicates, functions, keys, equalities, total orders and indices; all values of the other types", "why_tests_cant": "The migration examples print one small choice each and never call the operation they replace; duplicates, a primary that fails the test or is not the smallest, and indices other than 0 do not occur.", "anchors": ["MIGRATION_v0.11.0.md:638", "MIGRATION_v0.11.0.md:936", "examples/choice_migration_v0_11_0.rs:54", "examples/choice_migration_v0_11_0.rs:102", "examples/choice_migration_v0_11_0.rs:136", "examples/choice_migration_v0_11_0.rs:146", "examples/choice_migration_v0_11_0.rs:166", "examples/choice_migration_v0_11_0.rs:170", "examples/choice_migration_v0_11_0.rs:188", "examples/choice_migration_v0_11_0.rs:207", "examples/choice_migration_v0_11_0.rs:217", "examples/choice_migration_v0_11_0.rs:225", "examples/choice_migration_v0_11_0.rs:241", "src/datatypes/choice.rs:342", "src/datatypes/choice.rs:505", "src/traits/identity.rs:93", "src/utils/error_utils.rs:474"]}
{"id": "C110", "title": "The configuration pipeline of the error example reports every failure with the contexts of its step, latest first", "statement": "In examples/error.rs: a configuration text is accepted exactly when it is an optional sign and at least one decimal digit of a value that an i32 holds. The pipeline succeeds exactly on texts that denote an even number of at least 100, with the message for that number, and prints for every other text the failing step's error after the contexts of that step, the latest added first; a recovery that fails again adds its context and turns nothing into a success. Bulk contexts are printed latest first, then the error.", "quantifier": "all texts, all ways of printing a number, all errors and lists of contexts", "why_tests_cant": "The example runs two texts; the limits of i32, signs, leading zeros and the order of contexts from different sources are statements about all texts.", "anchors": ["examples/error.rs:6", "examples/error.rs:10", "examples/error.rs:18", "examples/error.rs:31", "examples/error.rs:51", "examples/error.rs:68", "examples/error.rs:99", "src/error/context.rs:204", "src/error/context.rs:274", "src/error/context.rs:375", "src/error/types.rs:309"]}
{"id": "C111", "title": "Suspended types nest one call deeper for every operation of a chain; value types do not nest at all", "statement": "Running a State, Reader or effectful IO computation built by a chain of n operations (map, bind, apply, local, combine) on a first computation has n more calls active at once than running the first computation alone, and at most n more than the deepest of the first computation and the functions given; building the chain makes no call. The final continuation of a Cont chain runs inside two more calls for each map and three for each bind. A composition of function morphisms nests exactly as deep as the tree of compositions is high, a combination of predicates at least as deep as its leftmost operand lies and at most as deep as it is high. A computation that binds itself n times nests n deep. In contrast, a Writer or ErrorPipeline chain of any length, IO::sequence, FunctionCategory::sequence and compose_all of any number of parts never have more than a fixed number of calls active beyond the deepest function given. The results are the same as without counting.", "quantifier": "all chains of operations and composition trees of any length, all functions, states, environments and continuations", "why_tests_cant": "A test runs one length on one stack size; that the depth grows with every operation for some types and not at all for others is a statement about every length.", "anchors": ["src/datatypes/state.rs:596", "src/datatypes/state.rs:708", "src/datatypes/reader.rs:304", "src/datatypes/reader.rs:342", "src/transformers/cont_t.rs:172", "src/transformers/cont_t.rs:213", "src/datatypes/io.rs:821", "src/datatypes/io.rs:888", "src/datatypes/io.rs:1467", "src/category/function_category.rs:153", "src/category/function_category.rs:393", "src/utils/hkt_utils.rs:510", "src/datatypes/wrapper/predicate.rs:206", "src/datatypes/writer.rs:1004", "src/error/context.rs:308", "CHANGELOG.md:51", "CHANGELOG.md:315"]}
{"id": "C112", "title": "A closure handed to a suspended computation is released exactly once, as soon as nothing built from it is held; dropping a chain nests one level per operation", "statement": "For every program that builds State, Reader, Cont, IO, Predicate and function-morphism computations from closures, combines them (map, bind, apply, local, combine, union, intersection, difference, negation, composition, sequence), clones them and drops them: at every point the closures released so far are exactly those given so far from which no computation still held was built, each released once; when nothing is held any more all closures given have been released (no cycle keeps any alive). Dropping a computation never frees more cells inside one another than operations lie above one another in the way it was built, where the parts of apply, combine and IO::sequence lie side by side; when everything was built by value (State, Cont, sequence) it is exactly that number. Dropping the result of a chain of n State operations on a computation frees n more cells inside one another than dropping that computation would, and the same holds for Reader and IO chains whose intermediate stages were dropped, and for Cont chains of at least one operation (never fewer than n + 1); operating by reference and then dropping the argument is the same as operating by value. While the argument is still held, dropping the result of a Reader operation frees one cell and releases only the closure given to that operation.", "quantifier": "all histories of building, cloning and dropping, all chains of any length", "why_tests_cant": "A test can watch a drop counter for one program; that no order of building, sharing and dropping leaks a closure or releases it early, and that the recursion of a drop grows with every operation, is about all histories.", "anchors": ["src/datatypes/state.rs:596", "src/datatypes/state.rs:708", "src/datatypes/state.rs:827", "src/datatypes/reader.rs:304", "src/datatypes/reader.rs:342", "src/transformers/cont_t.rs:172", "src/transformers/cont_t.rs:213", "src/datatypes/io.rs:821", "src/datatypes/io.rs:888", "src/datatypes/io.rs:1467", "src/datatypes/wrapper/predicate.rs:206", "src/category/function_category.rs:153"]}
