# Formal model of rustica in Rocq (Coq 8.16.1)

Source under study: `/repo` (Rust crate `rustica`), read as text only, never
built or run.  The development lives in `rocq/theories` and is built with
`coq_makefile`.  Properties: `properties.jsonl`.  Theorems per property:
`MANIFEST.json`.  Mutation tests: `seeded/LOG.jsonl`.

## Method

* Each modelled Rust function is a total, computable Gallina function.  A
  comment on every definition cites the file and the lines.
* `panic!`, failed `expect`/`unwrap`, `unreachable!`, out-of-range indexing and
  unsigned subtraction below zero are an explicit `Panic` outcome
  (`outcome := Ret a | Panic`, `Base.v`).
* Loops are folds or structural recursion, or recursion on a bound that is
  proved large enough.
* Closures are pure Gallina functions, except where a property is about
  effects, panics or scheduling.  There closures act on a world and may panic
  (`eff`, `comp`), or the code is a transition system.
* Laws between function-like values are pointwise; no functional
  extensionality is used.
* Specifications (`*Spec.v`, `LawSpec.v`) speak about plain lists, options,
  relations and traces, and do not mention model helpers.
* A property that is false of the code gets a theorem `..._refuted` with a
  concrete witness run of the model.  The strongest true statement found is
  proved next to it, named `..._partial` when it covers only part of the
  property.  The claim in `MANIFEST.json` is then `partial`.
* Every theorem has a concrete case (`Cxx_case`) that meets its hypotheses.

## File layout

`XModel.v` model, `XSpec.v` independent specification, `XFacts.v` (and, for the
vector, `PvecShape`, `PvecEnds`, `PvecHist`, `PvecFront`, `PvecSafe`, `PvecComb`, `PvecFlat`, `PvecQueue`)
lemmas, `XProps.v` final theorems, cases and `Print Assumptions`.

| files | code modelled |
|---|---|
| `Pvec*`, `Concat*`, `Any*` | `src/pvec/{core,tree,node,iter,traits}.rs` |
| `Choice*` | `src/datatypes/choice.rs` |
| `Validated*` | `src/datatypes/validated/*.rs`, conversions in `error/convert.rs`, `utils/error_utils.rs`, `traits/iso.rs` |
| `Sum*` | `maybe.rs`, `either.rs`, `id.rs`; `Option`/`Result`/`Vec` instances and default methods in `src/traits` (functor, applicative, monad, alternative, monad_plus, monad_error, identity, bifunctor) |
| `Eff*` | `writer.rs`, `state.rs`, `reader.rs`, `cont.rs`, `transformers/{state_t,reader_t,cont_t}.rs` |
| `Drop*` | ownership of the value moved by `ReaderT::bind` (the `unsafe` block) |
| `Err*` | `src/error/*.rs`, `utils/error_utils.rs`, the `try_*` runners of State, StateT, ReaderT |
| `Util*` | `utils/{categorical,hkt,transform}_utils.rs`, `utils/functions.rs`, `category/function_category.rs`, `traits/arrow.rs` |
| `IO*` | `datatypes/io.rs`, synchronous part |
| `Conc*`, `Memo*` | `IO::new_async` shared between threads; `wrapper/memoizer.rs` |
| `Optic*` | `lens.rs`, `prism.rs`, `iso_lens.rs`, `iso_prism.rs`, `traits/iso.rs` |
| `Wrap*` | `wrapper/{sum,product,min,max,first,last,predicate,thunk}.rs`, `traits/evaluate.rs` |
| `Semi*` | `traits/{semigroup,monoid,foldable}.rs` |
| `Async*` | `datatypes/async_monad.rs` |
| `VAsync*` | the async methods of `validated/core.rs` (1649-1756), `futures::future::join_all` |
| `PvecGen*` | the `u32` generation counter of `pvec/core.rs` |
| `Access*` | iterators and `&mut` access of `maybe.rs`, `either.rs`, `id.rs`, `validated/{iter,core}.rs` |
| `Misc*` | `traits/{pure,contravariant_functor,natural_transformation}.rs` helpers, effectful methods and `shrink` of `maybe.rs` |
| `Text*` | hand-written `Display`/`Debug` of `pvec`, `choice.rs`, `wrapper/*.rs`, `maybe.rs`, `io.rs` |
| `Lazy*` | `LazyContext`, `context!` and every function taking a context (`error/{types,context,macros}.rs`, `state.rs`, `state_t.rs`, `reader_t.rs`), with effects |
| `Ord*` | derived `Ord` and `Hash` of `PersistentVector`, its tree and nodes (`pvec/{core,tree,node}.rs`) |
| `Cmp*` | derived `PartialEq`, `PartialOrd`, `Ord`, `Hash` of `maybe.rs`, `either.rs`, `validated/core.rs`, `writer.rs`, `choice.rs`, `id.rs`, `wrapper/*.rs`; `AppError`'s `PartialEq` |
| `Cost*`, `Count*` | number of nodes visited by `get`, `update`, `push_back`, `push_front`, `concat` (`pvec/{core,tree,node}.rs`) |
| `Copy*` | number of `T::clone` calls made by every vector operation (`pvec/*.rs`) |
| `Ctx*`, `Pool*` | `run_async`, `new_async`, `delay` of `io.rs`: kinds of threads, simultaneous runs on a bounded pool |
| `Memo1*` | `wrapper/memoizer.rs` for one thread, functions with effects, panics and nested calls |
| `Serde*` | the derived serde impls of the data types (feature `serde`), to and from `serde_json::Value` |
| `Alias*` | the remaining small constructors, accessors and consuming forms |
| `Arb*` | the quickcheck `Arbitrary` instances of the data types (feature `quickcheck`) |
| `Call*` | closure-taking operations of the vector, `Choice`, `Vec`, `Foldable`, `Validated` and helpers, with effects and panics (`pvec/{core,traits,iter}.rs`, `choice.rs`, `traits/{functor,applicative,foldable}.rs`, `utils/{error_utils,hkt_utils}.rs`, `validated/*.rs`) |
| `Tests*` | the project's own tests in `/repo/tests` and documentation examples (`TestsDoc*`), run on the model as `Example`s (see Trusted base) |

## Per property

Vector.  Values are read through `reads v l` ("len, get and iteration of `v` are
those of the list `l`").  Invariants on size tables and heights are proved for
classes of operation histories.

* C01 proved: `from_slice`/`from_iter` for every list; the tree builder is modelled level by level.
* C02 proved: every history of pushes at both ends, extend, update.
* C03 proved: every history at the back end, including pop_back, split, take, skip, filter.
* C04 partial: false of the code (pop_front and mixed ends return wrong elements: two witnesses).  Proved for histories up to 64 elements, front stacks, draining after growth, and queues in which no pop_front meets fewer than 66 elements (65 is refuted).  `PvecDequeProps.v` covers any mixture of calls at both ends: `PvecDequeSpec.place_run` counts, from the calls alone, how many elements are in the front buffer, in between and in the back buffer, and stops at four kinds of call.  As long as it goes on the vector is right (`C04_both_ends_partial`); a `pop_back` at which it stops is always wrong (`C04_pop_back_always_wrong`); a `pop_front` at which it stops leaves the other elements reversed (`C04_pop_front_reverses`); a push at which it stops is right, but a given continuation is wrong (`C04_refill_back_wrong`, `C04_refill_front_wrong`).  `PvecGapProps.v` goes on past those two pushes: they leave an empty leaf, a hole, in the tree, and `PvecGapSpec.wide_run` also counts the elements before and behind it.  As long as it goes on the vector is right (`C04_past_refill_partial`, which includes `C04_both_ends_partial`); where it stops, a `pop_back` with an empty back buffer and a filled front buffer is always wrong (`C04_holed_pop_back_wrong`), a `pop_front` on the back buffer alone reverses (`C04_holed_pop_front_reverses`), and a `pop_front` that reaches the hole is wrong if the hole was made at the back and nothing behind it was taken from the tree (`C04_hole_reached_wrong`).  `PvecTrimProps.v` also goes past a hole reached from the back: the element handed back is right, but it may stay in the tree behind those that count, which does no harm until the back buffer is handed on (`C04_past_hole_partial`; `PvecTrimSpec.far_run` counts; `C04_trimmed_pop_front_reverses`).  At a hole reached from the front in other ways, and when the back buffer is then handed on, the shape of the tree decides, not the counts: `C04_counts_do_not_decide` gives for each of the two calls two histories with the same counts, one right and one wrong.  `PvecLeftProps.v`: a `pop_back` with an empty back buffer and a filled front buffer after a hole was reached from the back hands back an element taken earlier, or nothing; it is always wrong if all elements ever put in differ (`C04_trimmed_pop_back_wrong`), otherwise the counts do not decide (`C04_trimmed_pop_back_undecided`).  `C04_stopped_pop_back_wrong` and `C04_stopped_pop_front_reverses` restate the other two failures for every history `far_run` follows.
* C05 partial: false (the operands are swapped when the left tree is lower).  Multiset and length law for all assembled vectors, exact result for slices, for short right operands and for every nesting of concatenations of slices (`ConcatSpec`, `ConcatProps`: `C05_nested_exact`); right when levels never increase to the right (`C05_descending`).
* C06, C07 partial: proved for all back-end histories and for growth at both ends up to 2112 elements (2113 is refuted); false after `insert`. `PvecViewsSpec.v` counts where the elements are (front buffer, between, back buffer) when histories at both ends also cut the vector; every history on which that count goes on is right, whatever its length, and so are both parts of a further cut.
* C08 partial: one edit after any back-end history, then growth; false for chains of edits. After histories with both ends and cuts, one edit at the first place or behind the front buffer is right; within the front buffer, with more than one leaf between, the two parts always come out the wrong way round (`C08_insert_in_front`, `C08_remove_in_front`).
* C09 proved: map, filter, zip, partition, folds, dedup, sort, chunk.  `C09_any` and `C09_zip_any` (`WalkProps.v`) assume nothing about the vector: the list is what asking for position 0, 1, ... finds (`WalkSpec.front`), and the combinators panic exactly when that asking does.
* C10 partial: the two functor laws hold for every vector (`C10_laws_any`).  The length is not preserved: there are vectors whose length counts elements they do not have (`C10_length_refuted`), and `C10_length_exact` says which.
* C14 partial: false of the code.  After 65 pushes and pops at each end, pushing 67 and popping one leaves a vector of length 66 that holds two elements; iteration then ends after two although `size_hint` says 66, goes on later with another element, and the two folds disagree (`C14_iteration_refuted`).  For every vector: each accessor is told by single reads (`C14_from_get`, `C14_to_vec_any`, `C14_next_any`, `C14_folds_any`), all agree if nothing is missing (`C14_all_there`, `C14_agree`), and `C14_missing_exact` says which positions are missing.
* C11 partial: identities proved, associativity false, true below 128 elements; `C11_groupings` and `C11_associativity_exact` say exactly which lengths are associative.
* C12 partial: equality is sound; it is not complete because the generation counter is compared.
  `PvecEqProps.v`: for every two histories within 64 elements exactly when the results are equal (same elements and
  equally many changes since they were last collected), and for vectors of any length built alike.
* C13 proved (`C13_update_any`: for every vector any program can make, also ones whose contents are wrong).  C15 partial: false (a pop_back after mixed ends underflows); proved without pop_back after the back-end prefix.  `PvecPanicProps.v` gives the exact picture for vectors of any history: which `get`, `update`, `split_at`, `pop_front` and `to_vec` calls panic (`C15_*_exact`), that `pop_back` never does (`C15_pop_back_returns`), that nothing panics while the two buffers hold no more than the recorded length (`C15_only_overfull`), and the single call that breaks this (`C15_becomes_overfull`).
* C84 partial: the generation counter is a `u32`.  False with overflow checks (2^32 updates panic; `C84_exact` says of every history exactly when it panics, by a small machine on lists, `GenSpec.v`); in wrapping builds every history behaves as with an unbounded counter.

Choice.  C16, C17, C20-C23 proved as exact list equations.  C18 partial: bind
is not associative (witness), exact condition proved.  C19 partial: lift2 orders
its alternatives differently from apply; proved up to permutation.

Validated.  C25, C27, C82 proved.  C24, C26 partial: an `Invalid` without errors
is skipped by `collect`.  C28, C29 partial: failing identities and the panic on
an empty error list are witnessed; the rest proved with exact conditions.
C83 proved: futures as for C53, `join_all` visits its futures in an arbitrary order.

Maybe, Either, Id.  C30, C33, C35, C36 proved.  C31 partial (derived order).
C32 partial (`fmap_error` replaces a present value).  C34 partial.  C75 partial
(inherited `try_value` panics).  C76-C79 proved for the trait instances and
default methods; C79 exactly for every type with the methods, and as laws for every lawful
applicative or functor.  C67 partial (`Result`'s zero).

Effects.  C37, C38, C41, C44 proved for the laws and for every program of a small
embedded language of computations, against a direct meaning.  C39, C45 partial: bare
`StateT::Pure`, `ContT::lift`; C42 proved (noting the order of `ReaderT::apply`); laws
proved over any base with the monad laws as hypothesis (instances given).  C40 partial: both
parts run from the initial state.  C43 partial: an ownership trace counts drops;
`bind` drops twice exactly when the continuation drops or keeps its argument.
C80 proved.

IO and concurrency.  C46, C48 proved, C47 partial (closures on pure values run
early), C49 partial (panics of the handler).  C50, C51, C52: transition systems
over any number of threads and all interleavings.  C51 proved, C50 and C52
partial (a second thread can panic; poisoning is permanent).  C53 proved: futures
are coinductive state machines, for every environment and every number of polls.

Optics, wrappers, helpers.  C54, C55, C57, C58, C61, C62, C64-C66, C81 proved.
C56 partial (`set_focus`), C59 partial (checked and float arithmetic; `C59_sum_fits` and
`C59_product_fits` say exactly which groupings return), C60
partial (`Default` is not the extremum), C63 partial (`combine_n_owned` doubles).

Errors and utilities.  C68, C70-C74 proved.  C69 partial (contexts pending on an
`Ok` value are attached to a later error).

In-place access and printing.  C85 partial (`Access*`): an exclusive iterator is a
state with `next`, the caller a loop of any length that overwrites the slots it is
given; the error buffer can be emptied, after which `to_result` panics.  C86, C87
proved for every lawful functor, C88 proved (`Misc*`): closures and iterators are
effectful, shrinkers arbitrary.  C89 partial (`Text*`): a custom `MaybeError` can
imitate the other, elements that print separators make two choices or two application errors look
alike, and so do parentheses in two parse errors (`ParseErr*`, of `examples/advanced_parser.rs`; their
position can always be read back, and of several hints of a kind the last one counts); a vector of more than 64 elements prints its version counter instead of its contents.

C90 partial (`Lazy*`): a context is the computation that builds its message.
`with_context_result` and every error pipeline build exactly the messages an error
needs; the `try_*_with_context` runners of `State`, `StateT` and `ReaderT` build
theirs on success too (refuted, exact behaviour proved).
C91 partial (`Ord*`): the derived `Ord` and `Hash` of `PersistentVector`, field by
field.  `Ord` is a total order that agrees with `==`; it is lexicographic for vectors
made from slices of equal length or of at most 64 elements, and refuted otherwise (a
small vector comes before every large one; a vector may come before its own
beginning; the change counter breaks ties).  `Hash` respects `==` but not contents.
C92 proved (`Call*`): the operations written with their calls in order over a state
that closures may change, against relations that list the calls; with closures that
have no effect they equal the models used elsewhere (`C92_pure_*`).  For vectors nothing is assumed about the history: the elements are those met by reading one position after the other (`WalkSpec.v`).
C93 partial (`Cmp*`): the derived comparisons and hashes, field by field, against rules
that say which value comes first.  Total orders, equality and hashing are proved; so
are the conversions that keep the order.  `Either`/`Result`, `Maybe`/`Option` and
`Validated`/`Option` reverse it, and mapping a function that identifies elements can
reverse two choices (refuted).
C94 partial (`Cost*`): the number of nodes visited by a read, an update and an append.
Collected vectors are logarithmic (`C94_collected_partial`; the exact work for every element
is `C94_collected`).  For vectors grown by `push_back`,
`push_front` or `concat` the documented claim is false: a full root is paired with a
leaf, so the tree gains a level every 31*64 elements; exact costs and refutations.
Keeping one element of such a vector keeps its height, so no function of the length
bounds the work (`C94_one_element_refuted`).  `Count*` runs the operations with a step
counter and shows that the numbers belong to the modelled operations (`C94_counts`).
C95 proved (`Copy*`): the number of `T::clone` calls of each operation, as the code
makes them, for every vector made by the public operations (`made`).  The exact number is
given for short vectors and for collected ones with elements pushed in front (`CopyExactProps.v`:
`C95_short`, `C95_long`, `C95_join`, `C95_last_one`).
C96 partial (`Ctx*`): an IO used by one caller after another from ordinary threads, tasks
and pool threads; the rules of tokio's `spawn_blocking`, `block_on` and `Handle::current`
are part of the model.  False for IOs made from futures: `run` on an ordinary thread panics
and loses the future, inside a task it runs the future and loses the value.  Proved for all
sequences of uses whose first one is `run_async` or comes from the pool.
C97 partial (`Pool*`): simultaneous `run_async` calls on a bounded first-come-first-served
pool, each of which needs two threads.  No schedule blocks with fewer calls than threads;
with as many calls as threads one does (refuted).  At most half as many futures as threads are
awaited at the same time, and that many can be (`C97_parallel`).
C98 partial (`Memo1*`): one thread using a Memoizer with functions given as programs that
may have effects, panic, or call the Memoizer again.  False for such recursive functions
(they block) and, for commutativity, for functions that panic; the laws are proved otherwise.
`C98_sequence` and `C98_history` say what every call of any sequence answers and how often each
function runs.

C99 partial (`Serde*`): each derive is a pair of functions to and from JSON values, following
serde's rules (assumed, listed at the top of `SerdeModel.v`). `C99_containers`: a container reads
back exactly when its contents do. `C99_round_trip_partial`: over all nestings, every value reads
back exactly when there are no floats and no `Option`, `First` or `Last` is directly around a type
that can be written as null. `C99_values`: the same for single values, of every type: one reads back
exactly when no float inside is infinite or NaN and no present value inside is written as null
(`survives`). `C99_null_inside`: such a present value reads back as absent, without an error.
`C99_first_last_refuted`, `C99_not_finite_refuted`: `First(Some(None))` and `First(Some(inf))` read
back as `First(None)`, `Min(inf)` as an error. `C99_reads`: which JSON values are accepted as which value, for every type (relation `reads`). Missing: nothing
for the other nestings; the text form, the integer ranges and `f32` are not modelled.

C100 partial (`Arb*`): a generator is a function of an arbitrary generator state.  Every `Id`,
`Maybe`, `Either`, `Writer` and `Choice` can be drawn; a `Validated` with two errors never is, and
a drawn `State`, `Reader`, `Cont` or `IO` is always a constant (both refuted as stated, and
what can be drawn is proved).

C101 proved (`Alias*`): `one_reading` says that all accessors of a container agree with its
content.  The same files hold `C75_vector`.

C102 partial (`Hint*`): iterators carry their size estimates, and asking for more memory than a
limit panics.  `invalid_vec`, `Choice::new` and `lift2` are right for all iterators and lists
that fit.  `invalid_many` reserves room for the upper estimate, so it panics on a huge filtered
range that yields nothing; `filter_map(_collect)` reserve half the lower estimate, so they panic
on a huge iterator of which nothing is kept; `lift3` multiplies the lengths and overflows with an
empty third list (all three refuted; exactly when each works is proved).

C103 partial (`Defer*`): the deferred types and the optics with closures that have effects or
panic.  The specification is an interpreter of scripts that carries them out directly, and a log
of labelled calls.  State, Reader and Cont: proved.  StateT calls closures while building from its
Pure and LiftM variants, ReaderT::apply runs the value's side first, and Lens::modify calls the
getter twice (three refutations; the exact calls are proved).

C104 (`Arrow*`): the function category, the function helpers, predicates and isomorphisms with
closures that have effects or panic.  The specification gives for each way of putting them together
the labels called and the answer; the theorems are by induction on the term.  The laws that keep the
order of the calls are proved for closures of any kind; that the others do not hold is shown by
closures that log their label.  That building calls no closure is read off the code (the
constructors take the closure and only store it), not proved.

C105 (`Once*`): the operations of Maybe, Option, Result, Either, Validated, Id, Writer and
ErrorPipeline on one to three values, with closures that have effects or panic.  The specification
looks at each type as "holds a value or lacks it" and says which call is made; that the calls it
makes are at most one is proved too (`C105_once`), and that with closures without effects the
functions are those of the other models (`C105_pure_*`).  The laws of functors and monads are proved
with the effects; for Writer only if combining logs has none, which is shown to be needed.

C106 (`Clone*`): some 130 functions again, each with the `clone` of every type for which its signature
asks `Clone`; `clone` may have effects, panic or answer something else, and so may closures.  By-value
operations are shown to do what the specification of C105 says whatever `clone` does; borrowing ones to
call `clone` on what they keep.  Where the code copies more, the exact copies are given and the claim is
refuted by a witness: `Result::fmap_owned`, the default `pure_owned`, `apply_owned`, `lift2_owned` and
`lift3_owned` of `Vec` and `Choice`, `bind_owned` and `join_owned` of `Choice`, `Vec::from(choice)`,
`Choice::sequence`, `combine_owned` of maps, `combine_n_owned`, `repeat`, `power` (by value, but they copy);
`Foldable::to_vec`, `Foldable::find`, adding up choices, `Choice::join`, `pair_with` (more than once);
`Validated::to_result`, `combine` of maps (copies that are dropped).  With a `clone` that has no effect the
functions are those of the other models (`C106_faithful_*`).  Not modelled: `HashMap` (its order is not
fixed), `dedup` and the sorting functions of `Choice`, `AsyncM`, the persistent vector (its copies are
reference counts).

C107, C108 (`Parser*`, `Sql*`): the parser library and the SQL grammar of `examples/advanced_parser.rs`, combinator
by combinator.  A parser is a function from a number of rounds and an input to `Some` choice of parses, or `None`
if some `many` needs more rounds; *answers* means that it gives this choice from some number of rounds on, *forever*
that it never does.  `C107_items`, `C107_together`, `C107_repetition`, `C107_lists`, `C107_chains`, `C107_brackets`
say what is found, for any parsers with any number of parses; `C107_laws` the monad laws, which hold for every
number of rounds; `C107_ends` that what is left is an end of the input; `C107_returns` that everything except a
repetition returns if its parts do.  Partial, because `many` does not: `C107_many_returns_partial` needs parses that
use something, and `many(many(p))` runs for ever (`C107_many_returns_refuted`, `C107_many_endless`).  C108 states
the grammar as inductive predicates on texts, and proves that the parser reads every query of it
(`C108_reads`), finds nothing else (`C108_only_queries`), always returns (`C108_returns`), and that a text has one
reading (`C108_one_reading`).  Partial, because a WHERE whose condition is not understood is read as a WHERE without
a condition: `UPDATE users SET status WHERE id >= 42` is an update of every row and `id >= 42` is left over
(`C108_condition_dropped_refuted`), so that `C108_whole_text_partial` has a second kind of texts.  Simplified: texts are lists of code points (the
example works on `Vec<char>`), `collect::<String>` is the list itself, and which characters beyond ASCII are
alphanumeric or white is a parameter.  Not modelled: `ParseError` (unused by the parsers) and the printing of the demo.

C109 (`Migrate*`): what the migration guide, the migration examples and the deprecation notes tell users to write
instead of a deprecated operation, each as a definition next to the operation it replaces.  The same for all inputs:
reading, deduplicating, folding, adding (`C109_reading`, `C109_dedup_fold_add`), the map that keeps the first value
(`C109_map`), removal by position, one further than the index (`C109_remove_position`), `value`/`into_value`
(`C109_value`), the error helpers (`C109_errors`).  Partial, because the others differ; each has the exact condition
under which it does not (`C109_remove_value_exact`, `C109_swap_exact`, `C109_filter_exact`, `C109_fmap_exact`,
`C109_sorted_exact`, `C109_bind_lazy_exact`, `C109_try_value_exact`) and a witness (`…_refuted`): removal by value
drops every equal value, moving an alternative to the front is not the exchange, `filter_values` may drop the
primary, sorting after flattening moves the primary, `bind` loses everything if the primary's choice is empty,
collecting into a map keeps the last value of a key, and the compiler's note for `has_alternatives` forgets the
negation (`C109_note_has_alternatives_refuted`, for every choice).  In the guide's own examples `filter` (even numbers
of 1, 2, 3, 4, 5) and `flatten_sorted` (3 1, 4 2, 5) give other results than before.  Simplified: a hash set or map is the list of its
keys or entries; the written-out numbers of "explicit construction" are generalised to any choice and index.
Not expressible: that `either.right()` and `choice.unwrap()`, which the guide also names, do not exist.

C110 (`Example*`): `examples/error.rs`, its three steps, both pipelines and what they print, with `str::parse::<i32>`
as the loop of the standard library over the checked operations.  `C110_parse` states which texts denote which
number by digits and position, `C110_prints` and `C110_prints_second` the whole output for every text,
`C110_recovery` what the recovery changes, `C110_bulk` the bulk contexts.  Partial, because the latest context is not
always first: `with_context` of a pipeline collects its contexts outside the error that the pipeline carries, so that
in the example itself the recovery's context, added last, is printed second (`C110_latest_first_refuted`).
Simplified: a text is its bytes, `Box` is transparent, how an `i32` is printed is an argument.

C111 (`Depth*`): the operations of `State`, `Reader`, `Cont`, `IO`, function morphisms, `Predicate`, `Writer` and
`ErrorPipeline` once more, each run recorded as the forest of the calls it makes through stored closures
(`Arc<dyn Fn>`, `Rc<dyn Fn>`, `Box<dyn Fn>`); `nested n` (`DepthSpec.v`) says that `n` calls of the forest lie inside
one another.  `C111_*_adds`/`_reaches` give the depth every chain or tree reaches, `C111_*_at_most` the depth it never
passes, `C111_cont_exact` the depth of the final continuation, `C111_*_loop` a computation that binds itself,
`C111_io_sequence`, `C111_sequence`, `C111_compose_all`, `C111_writer_flat`, `C111_pipeline_flat` the constant depth of
the others, and `C111_same_values_*` that the values are those of `EffModel`, `IOModel`, `ArrowModel`, `WrapModel`,
`ErrModel`.  Not modelled: the size of a stack frame, calls known at compile time (a fixed number between two recorded
ones), closures that panic and the polls of `AsyncM`; the nesting of drops is C112.

C112 (`Share*`): the same operations seen only in what they store, clone and drop.  A computation is a handle on a
reference-counted cell that holds closures of the caller, numbered by the caller, and handles on other cells; dropping
the last handle frees the cell and drops what it holds, inside that call.  `ShareSpec.v` has histories of building,
cloning and dropping, and tells which closures are to be released from the list of closures each held computation was
built from, without counts; `act_high` tells how high it is built.  `C112_released_exactly`, `C112_all_released` and
`C112_depth_at_most` hold for every history, `C112_depth_unshared` for every history by value;
`C112_state_chain_depth`, `C112_cont_chain_depth` count the cells freed inside one another,
`C112_clone_then_drop` and `C112_reader_chain_depth` carry this over to `Reader` and `IO`, `C112_kept_argument` is the case of a stage still held.
Simplified: plain values captured are left out; what a closure captures is dropped in the order listed (the first two
theorems do not depend on it); `IO::bind` on `Pure` is left out, it returns what the function returns; threads are not
modelled (counts are atomic in `Arc`).

## Simplifications

* `Clone` is the identity and has no effect (except in `CloneModel`); `Arc`, `Box` are transparent.  A
  borrowed and an owned method with the same body are one definition; where
  the bodies differ both are modelled and compared.
* `usize` is unbounded, but every subtraction can panic.  Machine integers are
  modelled where the property is about them (C59, C60, C84).  The vector's `u32`
  generation counter is unbounded except in `PvecGen*`.
* `SmallVec`/`Vec` are lists; capacities and size hints of the
  allocation kind are dropped, except in `Hint*`.
* Hash maps and sets: the iteration order is an arbitrary permutation.
* `Display` of user types is an argument.
* Memory is sequentially consistent for the concurrency models; locks have no
  fairness.  For the Memoizer a return is recorded when the lock is released.
  A memoized function that calls the same Memoizer (which blocks) is treated in
  `Memo1*` for one thread only.
* `catch_unwind` always catches (`panic = "unwind"`).
* Async: no wakers; the environment decides when to poll.  The crate asks for
  tokio `1` without a lock file, and `join!` polls its branches in a rotating or
  fixed order depending on the version, so the order is arbitrary per poll.

## Trusted base

* Coq's kernel (8.16.1).
* The statements in `*Spec.v` and `*Props.v`.
* The hand translation from Rust to Gallina (`*Model.v`).  As a check on it, the project's
  own tests are translated to `Example`s on the model (`Tests*.v`); all agree.  They are
  tests, not proofs, and no claim rests on them.  Left out: tests on types local to
  the test file, printing of integers, timers, and Rust pointer equality.
* `Print Assumptions` is run for every theorem at the end of its file and says
  "Closed under the global context" for each.  No axiom is used, neither own nor
  from the standard library.  The kernel's primitive floats are not used; the
  floats of C59 and C99 use the standard library's `SpecFloat`, which is plain Gallina.
* The abstract fields of `Coq.ssr.ssrunder.Under_rel` (standard library) are loaded
  along with the standard `List` library; no theorem depends on them.

## Not modelled

* Memory layout, reference counts (except C112), allocation failure, drop order (except C43, C112).
* Derived `Debug`, formatter flags and errors, quickcheck's generators, the text form of JSON.
* The tokio runtime, timers and wakers, apart from the rules stated in `CtxModel.v` and
  `PoolModel.v`.
* `src/traits/{hkt,category}.rs` type-level declarations without bodies.
* `src/traits/{traversable,representable,comonad,profunctor}.rs` beyond the
  instances named above: what is left has no body or no implementation.
