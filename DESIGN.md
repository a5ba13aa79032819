# Formal model of stabby in Rocq (Coq 8.16.1)

Contents: 1 ground rules, 2 trusted base, 3 what is modelled and what is not, 4 the properties one by one,
5 findings (statements of the code that are false), 6 wrong programs.

## 1. Ground rules

* The model is written by hand from `/repo` (read as text, never run). Every definition of the model cites
  the file and lines it transcribes, and states its simplifications there. Paths are shortened when
  unambiguous: `result.rs` is `stabby-abi/src/result.rs`.
* Four kinds of files under `rocq/theories`:
  * `M_*.v`  model of the code (definitions, with citations),
  * `S_*.v`  specifications: small definitions that do not use the helpers of the model,
  * `L_*.v`  lemmas (proof machinery; nothing to be trusted there),
  * `P_*.v`  property theorems; each is followed by `Print Assumptions` and by an `Example` showing a
    concrete case meeting its hypotheses.
* When the code does not have a property, the full statement is refuted by a witness (`..._refuted`, the
  witness being evaluated by the kernel), and the part that holds is proved (`..._partial`, the missing
  part being named in the comment above it).
* Rust code is modelled by total functions on explicit states. A panic, an abort, an access out of bounds or
  an access to released memory is an explicit value (`None`, `Panic`, `Stuck`, ...), so that theorems say
  when it does not happen. Concurrent code is a transition system with one transition per atomic operation;
  the theorems quantify over all schedules of any number of threads.

## 2. Trusted base

* Coq 8.16.1: its kernel (with its conversion test and the `vm_compute` machine used in refutations and
  examples), its parser and its printer. `vcheck` re-checks everything with `coqchk`, without the VM.
* `Print Assumptions` answers **"Closed under the global context"** for each of the 665 theorems of the `P_`
  files, i.e. for each theorem named in MANIFEST.json: no axiom at all. The only axioms in the libraries
  loaded (`coqchk` lists them) are those of the module type `Coq.ssr.ssrunder.Under_rel` of the standard
  library (loaded through the standard library, used by no theorem).
* No axiom, `Admitted`, functor, module type, plugin or kernel flag is used. `Variable` and `Hypothesis` only
  occur inside sections.
* Only the standard library is used (lists, numbers, strings, permutations, `lia`).
* **The transcription.** That the `M_` files say what the Rust code says is checked by reading only; the
  citations are there to make that reading possible. The main modelling choices are in section 3.
* **The specifications** `S_*.v` and the statements in the `P_` files.

## 3. What is modelled

| Part of the code | Files of the model | Simplifications that matter |
|---|---|---|
| Type-level integers: `typenum2/{mod,unsigned}.rs`, `stabby-macros/src/tyops.rs` | `M_Typenum`, `M_TyEval` | types as an inductive; trait resolution as recursive functions; `syn::parse2` of an operand is taken to succeed |
| Layout traits: `istable.rs`, `stable_impls/mod.rs`, `enums/*`, `result.rs`, `option.rs`, struct/union/enum macros (what they generate) | `M_Layout`, `M_Result`, `M_Core`, `M_Enum`, `M_Cell`, `M_Decl`, `M_ResApi` | bytes are numbers below 256: uninitialised bytes, provenance and values 2..255 of `BitDeterminant` are not modelled; fields are read at the offsets stabby computes; `AsUint` of alignment a has size and alignment a |
| Reports, identifiers: `report.rs` | `M_Report`, `M_Decl`, `M_FnReport` | reports are finite trees (recursive types excluded); SHA-256 is an arbitrary function, its streaming update is concatenation |
| Imports and canaries: `checked_import.rs`, `stabby/src/libloading.rs`, `stabby-macros/src/functions.rs` and `lib.rs` (what they generate) | `M_Import`, `M_Canary` | the checker is a function of the report; dynamic loading is a map from symbols to addresses; happens-before is one bit per thread |
| Numbers: `num.rs`, `stabby/src/time.rs` | `M_Num`, `M_Time`, `M_Instant`, `M_Float` | arithmetic in `N`/`Z` with explicit wrap-around; `f64` as multiples of 2^-1074, rounded as IEEE 754 says; `std::time::SystemTime` is an integer number of nanoseconds |
| Allocators: `alloc/{mod,allocators/*}.rs` | `M_Alloc` | the global allocator and libc are arbitrary partial functions that return good blocks or fail; sizes and alignments at most 2^61; contents moved by the Rust adapter's `realloc` left out |
| `alloc/vec.rs`, `alloc/boxed.rs`, `alloc/single_or_vec.rs`, `closure.rs` (boxed `FnOnce`) | `M_Vec`, `M_Zst`, `M_Sov`, `M_Box`, `M_Unwind` | memory is a list of optional owned elements; the allocator may fail at any call; zero-sized elements are in `M_Zst` (addresses); panicking destructors, `Clone`s and iterators are in `M_Unwind` (for `Vec`), left out of `M_Sov` |
| `alloc/sync.rs` (Arc, Weak, ArcSlice, AtomicArc) | `M_Arc`, `M_ArcOrder`, `M_ArcSlice`, `M_AtomicArc` | handles are counted per thread; C25/C26/C28 interleave sequentially consistent operations, C58 adds happens-before; allocation failures of `Arc::new` left out |
| `alloc/collections/arc_btree.rs` | `M_BTree`, `M_ATree`, `M_BTreeFail` | nodes in a reference-counted heap; `Clone` gives equal values; addresses are never reused except in C61/C32, where reuse is explicit |
| `stabby-macros/src/lib.rs` (`Unself`, `Report`), `istable.rs` (`_Self`) | `M_SelfRep` | one scope, paths of one segment, type parameters with closed defaults; no lifetimes, const parameters, associated types, function types; the argument of `PhantomData` is asked to have a report |
| `stabby-macros/src/structs.rs`, `unions.rs`, `enums.rs` (attributes) | `M_Attr` | `repr` attributes only, as lists of items; what the compiler makes of them is specification (`S_Attr`, from the Rust reference); type-level arithmetic of `align` as numbers |
| `vtable/mod.rs` (and its registries), `fatptr.rs`, `stabby-macros/src/traits.rs` (what it generates) | `M_VtVec`, `M_ATree`, `M_Dyn`, `M_Auto`, `M_Variance`, `M_DynLife`, `M_Trait` | a vtable is a sequence of function words; trait resolution of markers and variance computation as recursive functions |
| `future.rs`, `iter.rs` | `M_Waker`, `M_Maybe`, `M_Adapter` | wakers as reference-counted boxes; futures and iterators as arbitrary step functions |
| `serde_impl` modules of `str.rs`, `slice.rs`, `option.rs`, `result.rs`, `alloc/{vec,boxed,string}.rs` | `M_Serde` | a format is a function from requests and documents to visitor calls; serde's own implementations for std types are the specification |
| `as_mut.rs`, `alloc/string.rs`, `slice.rs`, `str.rs` | `M_Guard`, `M_String`, `M_View` | ownership of blocks; core's `from_utf8` and ASCII-case functions transcribed by hand |
| `stabby-abi/src/fatptr.rs`, `alloc/sync.rs` (trait objects over `Arc`) | `M_Erase` | one thread; values as types and how they ended; vtables only as the type whose destructor they hold; `as_mut`, downcasts and super traits are in `M_Dyn` |
| `stabby-macros/src/enums.rs:538-594` (`has_optimal_layout`, assertions) | `M_Size` | the sizes the compiler gives are parameters |
| `PartialEq`, `Ord`, `Hash` of `str.rs:22-80`, `slice.rs:81-171`, `string.rs:112-335`, `vec.rs:464-479`, `single_or_vec.rs:337-380`, `sync.rs:564-583`, `boxed.rs:358-378`, `num.rs:19-153`, `result.rs:121-152`, `option.rs:23`, `vtable/mod.rs:260-420`, `report.rs:23-108` | `M_Cmp` | a hasher is seen through the bytes it is fed; the variant of a result is given; `NonX` at unsigned types; allocators and the restricted-bit integers are left to C41-C43 |
| `CType` in `istable.rs:45-49,534-590`, `stable_impls/mod.rs:252-996`, `lib.rs:260-306`, `result.rs:64-89`, `unsigned.rs:546-625`, macros `lib.rs:379-418`, `structs.rs:215-226`, `enums.rs:276-293`, `unions.rs:78-80` | `M_CType` | the bytes of `Align32`.. are one array; `abi_stable` types, `OneMoreByte`, `PaddingHelper` and the computational helpers (`FieldPair`, `Struct`, ..) are left out |
| `alloc/vec.rs:24-793`, `alloc/boxed.rs:275-445`, `alloc/mod.rs:116-145,227-408`, on bytes | `M_VecMem` | zero-sized elements (`M_Zst`), panics of destructors and of `Clone` (C75), `extend` without an upper bound, iterators by value, threads |
| `libloading.rs:72-99`, `functions.rs:306-350`, `stable_impls/mod.rs:812-910`, as calls | `M_Call` | how the platform's C ABI carries each input (it depends on the declared types only) |
| `alloc/sync.rs:400-722`, on bytes | `M_ShMem` | threads (`M_Arc`), zero-sized elements, panics of destructors, the value of the allocator kept in the prefix (where it is written is modelled), `From<Arc>` (`M_ArcSlice`), `ArcStr` (`M_String`) |
| `stabby-macros/src/utils.rs:15-72`, the items of `structs.rs:102-264`, `unions.rs:56-102`, `enums.rs:139-330,424-652` | `M_Generics` | attributes of parameters, panics for enums of fewer than two variants, the reading of `T: X (T)` as sugar for `Fn` (an error too), `experimental-ctypes`, assertions about sizes, bodies of items, whether bounds hold |
| `stabby-macros/src/functions.rs:26-160`, `306-350` | `M_FnItem` | attributes, visibility, variadics, patterns beyond their kind; which types are stable is an oracle; `export(canaries)` is in `M_Canary` |
| `stabby-macros/src/lib.rs:106-237` | `M_DynPtr` | types are what syn's parser gives; `?Trait` bounds, traits beyond a number |
| `stabby-macros/src/functions.rs:381-502` | `M_ExtBlock` | attributes of the block, extern types, attributes of functions other than `cfg`; which paths mean what is a parameter |
| `stabby-macros/src/traits.rs:896-938, 1022-1101, 1147-1176, 1222-1321` | `M_TraitTy` | names, lifetimes and expressions are numbers; the grammar of types is written down as a parser with fuel |
| `stabby-macros/src/traits.rs:28-48, 152-175, 208-414, 500-893`, `utils.rs:74-149` | `M_GenTrait` | parts of items (parameters, arguments, where clauses) are tokens and read by the grammar of `M_Generics`, what is around them is fixed; names of the user differ from those of the macro; a bound holds only if it is given; signatures are the names they mention |
| `stabby-macros/src/structs.rs:21-58, 114-147, 201-214, 258-260`, `enums.rs:104-151, 172-222, 556-575`, `unions.rs:21-75`, `lib.rs:300-352, 424-461` | `M_TyArgs` | arguments are token trees; values of expressions that are no literals are arbitrary, but literals side by side are no expression; sizes as laid out by rustc are arbitrary; groups without delimiters are left out |
| `stabby-macros/src/enums.rs:159-161, 172-222, 241-257, 334-364, 382-420, 433-531, 611-649` | `M_EnumNames` | types are the lists of names they mention; what rustc does with names is modelled for patterns, parameters and closures only; bounds and the layout types are left out (C06, C10); closures of the user note that they are called |
| `stabby-macros/src/gen_closures.rs:16-141`, `stabby-abi/src/closure.rs:15-16` | `M_Closure` | a closure is a function of its captured state and arguments; types are numbers; the expansion of `#[stabby]` on `CallMut` and `Call` is `M_Trait`'s; feature `alloc-rs` on |
| `stabby-abi/build.rs:24-143`, `src/alloc/allocators/mod.rs:1-38` | `M_BuildRs` | texts of types and names are strings; formatting and parsing of integers are core's; lists of parameters and fields are lists of names; a usize has 64 bits |
| `stabby-abi/src/istable.rs:78-131`, `report.rs:137-173` | `M_Pod` | types with what decides whether they are `Copy`; `Result`, `Option` (not `Copy`) and enums are left out; bytes of objects are initialised or not; values are those of C90 |
| `vec.rs:590-620`, `boxed.rs:447-477`, `sync.rs:598-628`, `arc_btree.rs:202-237`, `num.rs:277-316,419-458`, `report.rs:37-52`, `string.rs:102-111,179-188,338-353`, `option.rs:27-35`, `result.rs:110-120`, `lib.rs:177-186` | `M_Fmt` | core's builders (`debug_list`, `debug_tuple`, `debug_struct`, `PadAdapter`, `pad_integral`) as the standard library has them; Debug of `str` is a parameter of the model; Display of `ReportMismatch` and derived Debug of reports are left out |
| `stabby-abi/src/stable_impls/mod.rs:19-53,137-233` and the uses of `check!` | `M_Check` | the compiler is an arbitrary function from primitive types to sizes and alignments; `[cfg]` of `ARCH` is a parameter; features and the checks for `abi_stable` are left out |
| `stabby-abi/src/alloc/vec.rs:796-807`, `stabby/src/allocs/borrow.rs`, `stabby/src/map.rs`, `stabby-abi/src/alloc/mod.rs:115-213` | `M_Glue` | std's maps are association lists with lawful keys; std's `write_all` is modelled; `ToOwned` and `Borrow` of the payload are arbitrary functions; vtables call the methods they hold (C71); the deprecated default of `IStableAlloc::realloc` is that of `IAlloc::realloc` (C17); `borrow.rs` and `map.rs` are modelled as written although no `mod` of `stabby/src/lib.rs` reaches them (and `map.rs:14` asks for a feature `alloc` that `stabby/Cargo.toml` does not have): they are not compiled at this commit |
| `stabby-abi/src/num.rs:14-193`, `stable_impls/mod.rs:298-533` | `M_NumRep` | memory is given field by field (positions: C02); modules given to the attribute by users are not those of stabby |
| `stabby-abi/src/lib.rs:164-306` | `M_Like` | derived comparisons and formatting of StableLike are those of the value; HasExactlyOneNiche and ContainsIndirections of NoNiches are left out |
| `stabby-abi/src/typenum2/unsigned.rs:35-56,455-513`, `stabby-abi/src/lib.rs:274-306` | `M_Pad` | `Default`, `Copy` and derived comparisons of paddings are left out |
| `stabby-abi/src/report.rs:18-152` (links), `stabby-macros/src/lib.rs:295-351,423-460` | `M_RepList` | a reference is what it refers to; cycles, which constants cannot have, are left out |
| `stabby-abi/src/vtable/mod.rs:15-42,200-298,377-428`, `stabby-abi/src/lib.rs:92-104`, `stabby-abi/build.rs:125-139` | `M_VtCfg` | rustc's `cfg`, the rustversion predicates and name resolution as documented; channel "dev" and the `test` feature left out |
| `stabby/src/libloading.rs:62-131` with the symbols of `stabby-macros/src/functions.rs:293-348` | `M_Load` | libloading's `get` is external and modelled as documented (one final NUL accepted, other NULs an error, first symbol of that name); functions are opaque values; a symbol called at another type is `Undefined` |
| `num.rs:245-492` operators and formatting of `uN`, `iN` | `M_NumOps` | expressions of safe constructors and operators; formatting is the integer that is handed to the base type's formatter; `Hash` not modelled |
| `num.rs:520-1054` declarations of `uN`, `iN` | `M_NumTable` | all 246 declarations, copied by a script; the texts of the documentation are left out |

Not modelled: parsing done by the procedural macros other than `tyeval!` (only what they generate), derived `Debug` of reports and
`Display` of `ReportMismatch`, the `abi_stable` bridges, `libc`/`libloading` themselves,
closures without `alloc-rs`, `AccessAs` beyond C49, hash quality, timing,
stack usage, unwinding through user callbacks (except where a theorem says otherwise), compile-time
assertions emitted by the macros (they turn several of the findings into compile errors for *non-generic*
structs; the findings below say so where it matters).

## 4. Properties

"How" is the shape of the proof; the exact theorem names are in MANIFEST.json, with the status of each
property. Where the last column says *refuted*, section 5 has the finding.

| Property | Modelled | How | Result |
|---|---|---|---|
| C01 type-level integers | every associated type of `IUnsigned`, `IPowerOf2`, ... as a function on binary numerals | structural induction; each operation equals the one on `N` | proved |
| C02 C51 struct, union, array, enum layouts | `FieldPair`, `Struct`, `AlignedStruct`, unions, arrays, tagged enums | induction on the fields against a relational C layout (`c_struct`), proved unique | proved; unused bits of `repr(uN)` enums refuted |
| C03 C04 C05 niches | forbidden values, unused bits of all types of a grammar closed under structs, arrays, unions, results; `decode` gives the value held by bytes | one induction over the grammar with the invariant `good` (L_Good, L_Types) | C03 proved; C04, C05 proved when sizes match (C07), else refuted |
| C06 C08 C09 C10 results | determinant search, constructors, matching, guards on byte strings | search-loop invariant `det_good` | proved when sizes match (C08 always); refuted otherwise |
| C07 storage | `Storage`, a floor division | arithmetic | exact condition proved; refuted in general |
| C11 Option, conversions | `option.rs`, `From`/`Into` core | corollary of C06 | partial as C07; "same size as core" refuted |
| C12 repr(stabby) enums | balanced tree of Results, constructors, matchers, guards | strong induction on the number of variants | partial as C07 |
| C13 published algorithm | repr-stabby.md transcribed as an independent function (S_Repr) | equality of two functions over the grammar | equal after two errata; literal text refuted |
| C14 C15 layouts, prefixes | `Layout`, `AllocPrefix`, `AllocPtr` address arithmetic | arithmetic | partial; over-aligned elements refuted |
| C16 C17 allocator adapters | `RustAlloc`, `LibcAlloc`, over an abstract allocator | invariant over histories; block disjointness | partial; failure paths and shrinking refuted |
| C18 C19 C20 Vec | every operation on memory of optional elements, any failure pattern | refinement to lists; ownership as permutation of tokens | partial (honest hints, no overflow); C19 proved |
| C21 drain | `Drain`, `DoubleEndedDrain`, range bounds | refinement; explicit witnesses | front proved; back and bounds refuted |
| C22 boxed slices | conversions, `try_push`, drop | case analysis on the invariant | non-empty proved; empty refuted |
| C23 SingleOrVec | inner `Result` with its guards, at the level of bytes and of values | refinement | push histories proved; truncate/reserve refuted |
| C24 Arc, one thread | counters, all operations | refinement to handle counts | proved below 2^61 operations |
| C25 C26 Arc, threads | one transition per atomic operation | inductive invariant over schedules | proved without overlapping upgrades; races refuted |
| C27 ArcSlice | conversions with Vec, Arc, WeakSlice | refinement | partial; three conversions refuted |
| C28 AtomicArc | load, store, exchange as steps | invariant with ghost owners | partial; leaks and use after free refuted |
| C29 C30 C31 C59 B-tree | nodes, insertion with split, copy-on-write, drops | refinement to sorted lists; balance; snapshot; exact release | proved |
| C60 split limits | same, limit as a parameter | C29 + witnesses | odd limits from 3; 1 and even refuted |
| C61 atomic B-tree cell | edit loop, one transition per atomic operation, addresses reusable | invariant over schedules | partial; lost updates refuted |
| C32 registries | the two registries on top of C61 / a vector | invariant: no content twice | partial; refuted with reuse |
| C33 C35 C62 trait objects | vtables as words, upcasts, downcasts, receivers | induction on compound vtables | C33 proved; C35, C62 partial; `&mut` and lifetimes refuted |
| C34 C63 C64 markers, variance | the `unsafe impl`s as recursive functions | induction on types against reachability of values | partial; seven wrong bounds refuted |
| C36 C37 C57 reports | report trees, comparison, hash pre-image, reports of declared types | structural induction, injectivity | partial; truncation, versions, alignments refuted |
| C38 C39 imports | state machines of `CheckedImport`, `CanariedImport` | invariants over schedules | partial; data race and early use refuted |
| C40 canaries | parsing, selection, escaping, linking | induction on strings | partial |
| C41 C42 C43 numbers | all widths as parameters | bit arithmetic | C41 proved; subtraction in release, `IM::MAX` refuted |
| C44 C45 C56 time | durations, atomic durations, system time | arithmetic | C44 proved; MAX and times before 1970 refuted |
| C46 wakers | nested wakers in a heap of counted boxes | invariant over histories | proved for the default allocator |
| C47 MaybeResolved | the enum on bytes with its guards | simulation by an automaton, exact condition | partial; repeated outputs refuted |
| C48 adapters | iterators and futures as coalgebras, any nesting | simulation | proved for boxes |
| C49 guards | `RefAs`, `MutAs` over a heap of blocks | case analysis, iff condition | partial; three conversions refuted |
| C50 strings | operations on bytes, UTF-8 decoder | refinement to sequences of scalar values | partial (byte counts, allocator) |
| C52 wrappers | `MaybeUninit`, `UnsafeCell` | witnesses | refuted |
| C53 core Option/Result | declared layouts | induction: one niche exactly | partial; `Ordering` and alignments refuted |
| C54 C55 is_invalid, indirections | functions of `IStable` | induction over the grammar | soundness proved; completeness refuted |
| C58 memory order | C25 with happens-before | invariant; orderings as parameter | single thread; refuted with the Relaxed orderings of the code; proved for acquire-release |
| C65 declarations | all impls for primitives and pointers, per target | enumeration of the declarations, all targets | partial; `c_void` refuted |
| C66 interior mutation | writes through `&Ok`/`&Err` | search-loop invariant (L_Cell) | partial; padding writes refuted |
| C67 boxes | Box, raw pointers, trait objects over boxes, boxed FnOnce, failures and panics | one invariant over histories; refinement to variables that hold values | proved but for the release of memory when a destructor panics (refuted) |
| C68 Result's API | uses of a variable of type Result, as functions on its bytes; core's as functions on values | simulation by induction on the history; conservation of payloads | proved for payloads whose size is a multiple of their alignment; refuted otherwise |
| C69 views | a stack of borrowed views over a flat memory, core's slicing and UTF-8 checks | refinement to copies that are written back; invariant on the stack | proved but for programs that fill the public fields themselves (refuted) |
| C70 C71 C72 traits | syntax trees of types, the macro's functions on them, vtable fields, stability conditions, reports | mutual induction over types; induction on items | C71 proved; C70, C72 partial; arrays, fn pointers, `Self::x`, signatures refuted |
| C73 loading functions | reports of function pointers, `get_stabbied` | injectivity of the encoding, by induction on the inputs | proved but for types called `stabby::signature` (refuted) |
| C74 serde | `serialize`, `deserialize` and visitors over arbitrary formats, vectors as in C15 | induction on types, invariant of the reading loop | proved for formats that lend strings and announce sane lengths; otherwise refuted |
| C75 panics | `Vec` operations with a schedule of panics of destructors, clones, iterators | refinement to a list semantics with leaks; conservation by induction on the program | proved up to a panic in `truncate` or in the drop of `IntoIter` (refuted) |
| C76 `tyeval!` | the macro's loop over token trees; what it makes, resolved with `M_Typenum` | completeness for a grammar, by induction on it; conservation of names, by induction on the steps; meaning by induction on expressions | proved; the converse (only the grammar is accepted) is refuted |
| C77 instants | conversions with std's instants; a cell as its modification order, threads with views | simulation of a register of nanoseconds; invariants over runs | proved for instants from the epoch on, below 2^43 seconds; monotone with one updater, refuted with two |
| C78 `f64` | finite `f64` as numbers of units of 2^-1074; rounding to 53 bits, ties to even | monotonicity and error of rounding, arithmetic | proved for panics, truncation, monotonicity, accuracy; round trips up to one nanosecond, refuted exactly |
| C79 lifetimes in vtables | the types of the generated fields (`M_Trait`) | the lifetimes gathered from a type are followed through `unselfed` and `elide_lifetime`, by mutual induction on types | proved exactly; refuted for omitted lifetimes |
| C80 zero-sized elements | vectors as three addresses (`M_Zst`), wrap-around, debug assertions | one step against lists, exactly; induction over histories | proved without debug assertions and alignment; refuted otherwise |
| C81 interrupted insertions | insertion with a point of interruption, unwinding level by level (`M_BTreeFail`) | invariant of C29 to C31 with the leaked references as extra owners; simulation by a spec in which an insertion may panic | proved except for refused first allocations; unchanged content, release and these are refuted |
| C82 recursive reports | declarations with type parameters and defaults, `Unself`, generated reports (`M_SelfRep`) | equal reports make equal unfoldings at every depth (induction on the depth, with the enclosing type as parameter); existence by rank of declarations | proved under four conditions; refuted without each |
| C83 recursive layouts | layouts with placeholders (`M_SelfRep`), parametric in what layouts are | least number of levels at which a type has a layout; types up to subterms without layout | proved |
| C84 repr attributes | parsing of `repr` attributes, the attributes of the generated types, the checks of `ID` (`M_Attr`) | all layouts allowed by the Rust reference for the generated attributes, compared with the layout stabby declares; fields with bytes at their C offsets follow from equal sizes and alignments | partial: refuted for `align` alone, for unions with `align`, and when `ID` is not evaluated |
| C85 trait objects over Arc | `Arc`, `Weak`, `Dyn` of both, `ptr`, `ptr_mut`, `upgrade`, `try_into_inner` (`M_Erase`) | invariant over all programs: counters equal the numbers of pointers; types of pointers related to types of values | partial: refuted for `ptr`, `ptr_mut` and `Dyn<Weak>` |
| C86 sizes of enums | `enum_ty`, `provider_of`, `result_d`, `has_optimal_layout` (`M_Layout`, `M_Enum`, `M_Size`) | invariant of the tree of `Result`s: smaller than the tagged enum, or of its size with seven bits of byte 0 unused; induction for any number of variants | partial: refuted at five variants |
| C87 `Eq`, `Ord`, `Hash` | `eqv`, `cmpv`, `feed`, `rep_eq`, `rep_feed` (`M_Cmp`) | induction on types; prefix-freeness of the bytes fed; unambiguous parsing of reports | partial: refuted for copies of vtables, the hash of `Str`, reports of large versions |
| C88 C types | `src`, `ctype`, `tuple_array`, `ctype_assert` (`M_CType`); `occupies` (`S_CType`) | induction on types with size and alignment | partial: refuted for emulated types, oddly aligned integers, empty unions |
| C89 vectors in memory | `heap`, `m_push`.., `step`, `run` (`M_VecMem`); `types_ok`, `spec_step`, `history` (`S_VecMem`) | a separation invariant: the live blocks are, up to order, those of the objects and those of others; every operation keeps it with any frame | partial: refuted for over-aligned elements, overflowing sizes, empty boxed slices |
| C90 calls of loaded functions | `call` (`M_Call`); `declared`, `passes`, `answers` (`S_Call`) | composes C73 (which functions are handed over), C57 (reports determine types) and the reading of values of C01..C08 | partial: refuted for `MaybeUninit`, additional fields, `i128` |
| C91 shared slices in memory | `word`, `rmw`, `s_of_vec`.., `sstep`, `srun` (`M_ShMem`); `spec_sstep`, `shistory` (`S_ShMem`) | the invariant of C89 with the blocks of shared slices added, whose two counters are the numbers of handles to them (and one for all the strong ones) | partial: refuted for vectors without capacity |
| C92 generics in what is generated | `expand`, `parse`, `accepts` (`M_Generics`); `legal`, `works`, `supported`, `bounded` (`S_Generics`) | the parser reads back each printed list, by induction; items by kind | partial: exact characterisation, refuted outside it |
| C93 stabby functions and exports | `stabby`, `export`, `gfn_ok`, `exported_ok` (`M_FnItem`); `kept`, `fn_supported`, `export_supported` (`S_FnItem`) | the arguments by induction, the rest by cases on the words | partial: exact characterisations, refuted outside them |
| C94 dynptr! and vtable! | `dynptr`, `vtable` (`M_DynPtr`); `means`, `offers`, `supported` (`S_DynPtr`) | the loop over bounds by induction, the rest by cases on the type | partial: exact characterisation, refuted outside it |
| C95 import of extern blocks | `import`, `accepted`, `provided` (`M_ExtBlock`); `declared`, `supported` (`S_ExtBlock`) | paths one module deeper by cases, items pointwise by induction, the arguments by induction | partial: exact characterisation, refuted outside it |
| C96 types of signatures | `from`, `print`, `p_ty` (`M_TraitTy`); `meaning`, `supported` (`S_TraitTy`) | mutual induction on the syntax of types: parsing what is printed gives the type back | partial: exact characterisation, refuted outside it; also discharges the comparison of tokens of `M_Trait` |
| C97 generic traits | `raws`, `vt_decl`, `compile`, `accepted` (`M_GenTrait`, the vtable through `expand` of `M_Generics`); `legal`, `works`, `supported` (`S_GenTrait`) | symbolic reading of every generated item for all lists of parameters, bounds and types; the vtable by C92's theorem; conversely each rule of Rust forces a condition | partial: exact characterisation, refuted outside it |
| C98 arguments of types | `parse`, `compile` (`M_TyArgs`, reports of `M_Report`); `written_all`, `int_value`, `understood`, `supported` (`S_TyArgs`) | induction on token lists: a comma always ends a setting, modules only grow; decimal reading against the grammar of literals | partial: exact characterisation, refuted outside it |
| C99 names in enums | `expand`, `accepted`, `call_match` (`M_EnumNames`); `works`, `supported` (`S_EnumNames`) | the halving recursion is a tree with the variants as leaves; evaluation of the closures by induction on it, in any environment that gives the closures | partial: exact characterisation, refuted outside it |
| C100 closures | `generate`, `call`, `object_stable`, `object_report` (`M_Closure`); `direct`, `all_stable` (`S_Closure`) | lookups of distinct names; induction on the sequence of calls | partial: calls exact below ten inputs; stability and reports refuted |
| C101 build script | `typenum_unsigned`, `written_tuples`, `default_allocator` (`M_BuildRs`); `spelled`, `denotes`, `expected`, `asked_tuple` (`S_BuildRs`) | digits by induction on the loop; texts of types are read in one way only; distinctness of the keys by building a set; binding by distinct names | partial: exact characterisation, refuted outside it |
| C102 plain old data | `is_pod`, `transfer` (`M_Pod`, on layouts, values and reports of C02, C12, C37); `tied`, `holds`, `described`, `no_collision`, `dense`, `unique`, `rust_layout` (`S_Pod`) | induction on types: equal reports give equal layouts; decoding is injective where there are no gaps, so a byte that is not initialised would give two values | partial: refuted outside |
| C103 formatting | `debug`, `set_debug`, `hex_seq`, `display_im`, `report_display`, `write_all` (`M_Fmt`); `std`, `show`, `shape`, `clear_fill`, `readable`, `text_value` (`S_Fmt`) | induction on values: text indented by `PadAdapter` is that shown one level deeper; unique reading of the texts | partial: refuted outside |
| C104 compile-time checks | `check`, `stabby_size`, `stabby_align`, `compiles` (`M_Check`); `agree`, `documented`, `sane`, `documented_options`, `niches_agree`, `decimal` (`S_Check`) | the buffer is empty exactly if nothing differs; types without a check take their layout from checked ones | partial: refuted outside |
| C105 adapters | `io_session`, `cow_*`, `imap_run`, `tower` (`M_Glue`); `written`, `implements`, `run_spec` (`S_Glue`) | refinement by induction on the history, on C11, C12 and C18 | partial: refuted outside |
| C106 integers across libraries | `rty_report`, `rty_store`, `rty_load` (`M_NumRep`); `alike`, `honest`, `forbidden`, `sized_name` (`S_NumRep`) | induction on types; names are told apart by a lookup in the table of all integer types | partial: exact, refuted outside |
| C107 StableLike | `claimed`, `like_check`, `ldecode`, `like_ok`, `like_set_ok` (`M_Like`); `truthful`, `honest`, `advised` (`S_Like`) | induction on types: what the user reads is a function of what the claims read; round trips of C06 | partial: truthful descriptions; refuted otherwise |
| C108 padding types | `padding_of`, `tell`, `rust_size`, `nn_told`, `nn_rust`, `pad_report` (`M_Pad`); `idle`, `value` (`S_Pad`) | induction on the padding type, with the arithmetic of C01 and the masks of tuples of C04 | partial: sizes and unused bits; alignment of NoNiches and reports refuted |
| C109 linked reports | `next`, `next_const`, `build`, `linked_compatible`, `linked_hash`, `linked_eq` (`M_RepList`); `yields`, `reads_as` (`S_RepList`) | mutual induction on reports and links; iterators characterised by all their answers | proved |
| C110 configurations of vtables | `ctors`, `statics`, `impl_items`, `fits`, `compile`, `vtable_shows` (`M_VtCfg`); `promised`, `functions` (`S_VtCfg`) | case analysis of the gates for symbolic versions and option lists; induction on vtables | partial + refuted |
| C111 loading by name | `symbols`, `link`, `cname`, `lib_get`, `load_stabbied`, `load_canaried` (`M_Load`); `offered`, `unreserved`, `nameable` (`S_Load`) | lookup in a table without duplicates; the two suffixes end differently, so a suffixed name has one origin; reduction to C40 | partial + refuted |
| C112 narrow integer expressions | `ueval`, `ieval`, `um_fmt`, `im_fmt` (`M_NumOps`, on C42, C43); `uvalue`, `uvalue_mod`, `ivalue`, `iplain` (`S_NumOps`) | induction on expressions; sign extension keeps bits, so it commutes with `&` and `\|` | partial + refuted |
| C113 declared narrow integers | `umasks`, `imasks`, `find_type`, `u_new`, `i_new` (`M_NumTable`, on C42, C43 and `build_u`); `int_name`, `missing`, `smallest` (`S_NumTable`) | the table is checked entry by entry; the general theorems of C42 and C43 give the values | partial + refuted |

## 5. Findings

Each item is a theorem `..._refuted` of the model; the witness is in the proof. They are stated for the pinned
commit, as read; none was reproduced by running code (the task forbids it).

**Layout and Results**

* C07/C06/C04/C05 (`result_storage_fits_refuted`, ...): `Storage` is an array of `Size / Align` integers, a floor
  division (result.rs:82-89, typenum2/unsigned.rs:563-571). If the larger payload's size is not a multiple of
  the larger alignment, e.g. `Result<[u8; 3], u16>`, the storage is smaller than the payload and writes go out of
  bounds. The C04 and C05 refutations are about the offsets stabby computes for such types. Assertions emitted by
  `#[stabby]` catch many of these in non-generic structs; `Result` itself has none.
* C11 (`option_same_size_refuted`): `Option<(u8, bool)>` is larger than core's.
* C13: the text of repr-stabby.md differs from the code in two places (errata in S_Repr), and for empty `Err`.
* C51 (`repr_u_enum_unused_bits_refuted`): unused bits declared for `repr(uN)` enums with data are used by rustc.
* C52/C66 (`maybe_uninit_niches_refuted`, `unsafe_cell_niches_refuted`, `shared_write_refuted`): `MaybeUninit` and
  `UnsafeCell` re-export the niches of their content, so a `Result` can keep its tag in bytes they may overwrite.
* C53 (`core_option_single_niche_refuted`, `core_result_alignment_refuted`): `Ordering` counts as having no niche,
  so `Option<(NonZeroU8, Ordering)>` is declared stable; `core::Result<NonZeroU8, [u16; 0]>` gets alignment 1.
* C54 (`is_invalid_detects_refuted`): null references are not detected.
* C65 (`c_void_declaration_refuted`): `c_void` is declared zero-sized (it has one byte), without a check.
* C57 (`aligned_/wrapped_/i128_/u128_reports_refuted`): reports ignore `repr(align)`, wrappers, the alignment of
  128-bit integers.
* C63 (`result_markers_refuted`): `Result` is `Send + Sync` for any payload, as its only field is an array of
  integers (result.rs:30-36); so are `Option`, `#[repr(stabby)]` enums and `SingleOrVec`. For the same reason
  pointer provenance and `UnsafeCell` are hidden from the compiler (not modelled).

**Identification and imports**

* C36 (`compatible_transitive_refuted`, `compatible_layouts_refuted`): comparison zips the fields, hence ignores
  the additional fields of the longer report.
* C70 (`checked_trait_refuted`): `PartialEq for Ty` says that arrays and bare functions are equal to nothing
  (traits.rs:985), and `stability_cond` drops types that differ from their `unselfed` version; so `#[stabby(checked)]`
  does not check `[T; N]`, `extern "C" fn(T)`, references and pointers to those, and `Self::x`.
* C72 (`dyn_report_refuted`): the report of a vtable's entry is that of `&'static ()` (StableLike), and generics are not
  part of reports: `get_stabbied` and `stabby::import` accept functions over trait objects whose methods have other
  signatures, e.g. `dyn T<Output = u8>` for `dyn T<Output = u64>`.
* C73 (`get_stabbied_refuted`): signatures are nested pairs called `stabby::signature`; a user's type of that name is
  taken for a pair.
* C37 (`id_version_refuted`, `id_separator_refuted`): the version is not hashed; names are hashed without separators.
* C38 (`import_initialised_before_read_refuted`): `checked` is loaded with Relaxed (checked_import.rs:111).
* C39 (`canary_runs_before_use_refuted`): the second thread does not wait for the canary (checked_import.rs:40-48).
* C40: canary names with an underscore are refused; `get_canaried` does not ask for the host's canary; escaping is
  not injective on names that look escaped.

**Numbers and time**

* C42 (`narrow_unsigned_release_sub_refuted`): without overflow checks subtraction yields a value outside the type.
* C43: `MAX` (hence `new`) and the order of narrow signed integers are wrong unless the storage is twice as wide.
* C45: the documented `MAX` of atomic durations is not in range; C56: times before the epoch become the epoch.

**Allocation**

* C14: `concat` of unpadded layouts, `array` without overflow checks.
* C09, C10 (`result_exported_bits_free_refuted`, `guard_keeps_variant_refuted`): in `Result<(Result<(u8, u8, bool), u16>, u8), ()>` the tag,
  and all bits that are exported, lie in the last `u8` of the payload: writing 3 to it through the guard leaves 2.
* C15: with elements aligned more than the prefix, the data overruns the block, `realloc` and `free` are given a
  pointer that was not returned by the allocator, and data moves within the block.
* C16 (`rust_alloc_failure_refuted`): the adapter writes its prefix through a null pointer when the global allocator fails.
* C17: shrinking copies the old size into the smaller block; the Windows shim exchanges size and alignment.
  `LibcAlloc` with an alignment below 8 always fails (noted, not a theorem).

**Containers**

* C18: `extend` trusts `size_hint` (safe code), `reserve` and `extend` overflow.
* C21: `next_back` is off by one and reads out of bounds; `size_hint` of the double-ended drain; `try_drain` refuses
  valid ranges and accepts 10..9; `drain(..=usize::MAX)` wraps.
* C22: empty boxed slices leak reserved memory; `try_push` on one without memory reads a dangling prefix.
* C23: `truncate(0)`, `reserve`, `extend` on a single small element: the guard re-applies the tag over the vector
  (single_or_vec.rs:203-245, result.rs:509-519); a refused `try_reserve` drops the element it keeps;
  `IterMut::nth(usize::MAX)` wraps.
* C24: counts overflow unchecked; `IPtrOwned for Weak` decrements the strong count (sync.rs:771-785).
* C25/C26: overlapping `Weak::upgrade`s (sync.rs:358-372) give an Arc to a destroyed value, or leak; `is_unique`
  reads two counts one after the other (254-256).
* C27: `ArcSlice::from(Arc)` does not forget the Arc (484-493); empty vectors are written through a dangling pointer.
* C28: `AtomicArc::store` leaks the old content, a failed exchange leaks the new one, `load` increments after loading.
* C58: decrements and loads are Relaxed (sync.rs:213, 289): destruction races with accesses.
* C60: a split limit of 1 panics after the allocator was read out (dropped twice); even limits (not checked by `AtomicArcBTreeSet`) read past the entries.
* C61/C32: in-place edits are lost, ABA, use after free between load and increment, the cell never drops its tree;
  the B-tree registry can intern one content twice or panic, the vector registry can use a released vector.
* C50 (`string_shared_refuted`): an empty String with a sized allocator made an ArcStr.

**Trait objects, futures, guards**

* C34/C63/C64: `HasSendVt for VTable` asks the tail for *Sync* (vtable/mod.rs:339); `DynRef` is Send if the pointee is;
  `Dyn<Arc>` needs one marker where Arc needs two; `AtomicArcBTreeSet` and `CanariedImport` are Send + Sync for any
  content; `Box` is Sync whatever its allocator; `SliceMut` is covariant.
* C62/C35/C48: `IPtr for &mut T` transmutes the reference to the reference (fatptr.rs:53-67), so methods of
  `Dyn<&mut ()>` receive the address of the pointer; `DynRef::downcast` returns that address too; vtables compare
  by address.
* C62 (`receiver_swap_refuted`): `Dyn::ptr_mut` is public and safe and returns `&mut Box<()>` whatever the type of the value
  (fatptr.rs:216-220); `mem::swap` of two of them runs the methods and the destructor of one type on a value of another.
* C35 (`stable_downcast_lifetime_refuted`): nothing asks that the value or the target of `stable_downcast_ref`/`_mut` be `'static`
  (fatptr.rs:293-299, 327-334; vtable/mod.rs:460), and reports have no lifetimes: from a `Dyn<'a, Box<()>, _>` made of a
  `Box<&'b u8>`, safe code gets a `&'static u8`.
* C69 (`view_fields_refuted`): the fields of `Slice` and `SliceMut` are public (slice.rs:22-29, 117-124): safe code can build one over
  memory it does not own, or lengthen one, and dereference it.
* C67 (`box_no_leak_refuted`): if the destructor of the value panics, `Drop for Box` unwinds before `free` (boxed.rs:247-256):
  the block and its allocator are leaked, unlike std's Box.
* C46: `with_waker` casts to `StableWaker<DefaultAllocator>` (future.rs:133).
* C47: the guards held by `poll` set their tag again over `Empty` (future.rs:350-358): outputs are yielded again
  and futures destroyed again.
* C49: `ref_as` of String as std String frees the source; of a single `SingleOrVec` leaks; a forgotten `mut_as`
  guard leaves the source dangling, contrary to the documentation (as_mut.rs:78).
* C75 (`vec_truncate_unwind_refuted`, `vec_into_iter_unwind_refuted`): `truncate` changes the length after the destructors
  have run (vec.rs:251-254), so if one panics, the vector still holds the destroyed elements and destroys them again. `Drop for
  IntoIter` sets the length to 0 after the destructors (vec.rs:664-665); if one panics, the vector is dropped with its former length:
  the remaining elements are destroyed twice, and those already given away once more. `vec_unwind_leak_refuted`: `Drop for Vec`
  loses its block, a drain the tail, `clone` the clones made.
* C76 (`tyeval_malformed_refuted`): `tyeval!` counts operands, and does not check where they are. `(A)(B)+` is `A + B`, `A (B) +` is `B + A`,
  and `C ? (A) (B)` needs no colon.
* C76 (`tyeval_types_refuted`): the `>` of `->` closes the list of arguments in which it is, so that `F<fn() -> A> + B` is refused; and `!<A as Bit>::And` is
  refused since `!` and `<` are one token to the macro (`!(<A as Bit>::And)` is accepted).  Both are compile errors.
* C77 (`atomic_instant_monotone_refuted`): `AtomicInstant::update` reads the clock before it swaps (time.rs:306-316): of two threads that update, the
  slower one puts the cell back, and is given an instant after its own. `instant_round_trip_refuted`: instants before the zeroed one become it.
* C78 (`duration_f64_round_trip_refuted`, `duration_f64_whole_refuted`): `from_secs_f64` truncates where core's rounds, so that 2.3 seconds become
  2.299999999 (time.rs:44); `as_secs_f64` goes through the number of nanoseconds (time.rs:57), so that 16334996914 seconds become
  16334996913.999998. Infinity does not panic; it gives 2^64-1 seconds.
* C79 (`vtable_lifetimes_refuted`): `elide_lifetime` (traits.rs:1103-1146) makes the lifetimes of references `'static` only if they
  are written, and does nothing in function pointers; `fn f(&self, x: &u8)` in a `#[stabby(checked)]` trait thus puts `&u8` in the type of a
  field, which rustc refuses.  `fn f(&self, x: &u8) -> &u8` becomes the type `fn(&(), &u8) -> &u8`, which is refused too, for all traits.
* C80 (`zst_push_refuted`, `zst_debug_refuted`, `zst_align_refuted`, `zst_length_refuted`, `zst_boxed_refuted`): the special cases for zero-sized
  elements do not work: `FIRST_CAPACITY` divides by their size, so that `push` and `extend` do not compile; the `debug_assert` of `ptr_diff`
  refuses the distance to `usize::MAX`, so that `reserve` and `clone` panic in debug builds; `end` counts elements in bytes, so that `pop` and
  `copy_extend` use misaligned pointers for `[u64; 0]`; copying `usize::MAX` elements reallocates a dangling pointer.
* C81 (`btree_interrupted_unchanged_refuted`, `btree_interrupted_leak_refuted`, `btree_interrupted_allocator_refuted`): `split` moves half of the node and the pivot
  out before it allocates, so a refused allocation destroys them and the set has lost up to half of a subtree; `ArcBTreeSetNode::insert` likewise loses half of the
  set when the allocation of a new root is refused.  `Clone` of nodes fills an array of `MaybeUninit`: a panic of `T::clone` leaks clones of Arcs, so nodes are never
  released.  `insert` on an empty set reads the allocator out before `Arc::new_in`: if that panics, the allocator is dropped by the unwinding and again with the set.
* C82 (`self_argument_refuted`, `default_argument_refuted`, `phantom_reports_refuted`, `core_result_reports_refuted`, `generic_recursion_refuted`): all placeholders
  are the same type, so `Foo { x: &G<Foo> }` has one report whether `G<T>` is `{ y: &T }` or `{ y: &Self }`; in `Foo<T = u8> { a: T, x: &Foo }` the bare name is reported as
  `Self`, though it is `Foo<u8>`; `PhantomData<T>` and core's `Result` drop type arguments, so that for instance `Handle<Door>` and `Handle<Window>` share their report and
  `ID` (and `stable_downcast` takes one for the other); a generic type that calls itself `Tree<T>` instead of `Self` has no report at all.
* C84 (`struct_accepted_refuted`): `#[repr(transparent,)]`, legal Rust, is not recognised (the parser compares the text of the attribute's tokens); the macro then adds `#[repr(C)]`, and the compiler refuses the combination. `struct_accepted_partial` says which written forms are accepted.
* C84 (`struct_align_refuted`, `struct_unchecked_refuted`, `union_repr_refuted`): a struct with `#[repr(align(n))]` and nothing else is not given `#[repr(C)]`
  (the attribute was "understood"), so the compiler may reorder its fields; sizes and alignments agree and `ID` accepts it, while niches are declared at the C
  offsets: `Some(S { a: true, b: 2 })` of `#[repr(align(4))] struct S { a: bool, b: u16 }` reads as `None`.  `#[repr(packed)]` has an error message of its own
  ("stabby does not support packed structs") that `.ok()` drops: the struct is accepted, and is wrong by its size until `ID` is evaluated, which a program need
  not do; the same with `#[repr(C, align(16))]`.  Unions are never checked.
* C74 (`serde_string_refuted`, `serde_length_refuted`, `serde_length_panic_refuted`): `String`, `BoxedStr` and `ArcStr`
  deserialise through `Str`, whose visitor accepts borrowed strings only (str.rs:162-173, alloc/string.rs:382-390): strings
  with escapes, or read from a stream, are refused. `VecVisitor` reserves the length the document announces
  (alloc/vec.rs:869): 2^61 elements of 8 bytes wrap to 0 bytes and the first push writes out of bounds; smaller lengths panic
  where the standard library returns an error.
* C85 (`dyn_ptr_refuted`, `dyn_ptr_into_inner_refuted`, `dyn_ptr_mut_refuted`): `Dyn::ptr` and `Dyn::ptr_mut` are safe and give an `Arc<()>`.  A clone of it that outlives
  the trait object frees the allocation without running the destructor (a leak of what the value owns); exchanging the pointers of two trait objects of different
  types makes each run its destructor, and its methods, on a value of the other's type (type confusion in safe code).
* C85 (`dyn_weak_drop_refuted`, `dyn_weak_revive_refuted`, `dyn_weak_upgrade_refuted`): `IPtrOwned for Weak` is a copy of that of `Arc` and decrements the *strong* count.
  Dropping a `Dyn<Weak>` destroys a value that still has an owner, or makes the count of a destroyed one `usize::MAX`, after which any other `Weak` upgrades to it;
  `Dyn<Weak>::upgrade` consumes the `Dyn<Weak>`, so the new owner is never counted.  All of this is safe code of one thread.
* C86 (`enum_not_larger_refuted`): with five variants a `#[repr(stabby)]` enum can be larger than the `#[repr(u8)]` one (12 bytes instead of 8 for two unit variants,
  `(u8, bool, u8, u8)`, `u32` and `u32`): a level that finds a forbidden value in the first position stops there although that position exports no unused bit, and the next
  level pays for a second tag.  The doc of `has_optimal_layout` (enums.rs:548) and README.md:18 suggest otherwise.
* C87 (`equal_copies_refuted`): `VtDrop` derives `Eq` and `Copy`, but its `PartialEq` compares the addresses of the two `drop` fields (`vtable/mod.rs:364-371`), not the functions
  they hold; a copy of a vtable is therefore never `==` to it, although both hash alike.
* C87 (`view_hash_refuted`): `Str` derives `Hash` from its slice of bytes (length, then bytes), whereas `str` and stabby's other strings feed the bytes and then 0xff: for no
  text at all does `Str` hash as the `str` it dereferences to.
* C87 (`report_hash_separates_refuted`): `TypeReport::hash` does not feed the number of fields; a report with a version of 2^24 or more can be hashed as one with a deeper tree of fields.
* C88 (`ctype_emulated_refuted`): `NoNiches` has `CType = ()` (`lib.rs:304`), whatever size it emulates; a `#[stabby]` struct with such a field panics at compile time under `experimental-ctypes`.
* C88 (`ctype_integers_refuted`): the C type of an integer is chosen by its alignment (`stable_impls/mod.rs:383-410`): where `u64` is aligned to 4 its C type is `u32`, where `u128` is aligned to 8 it is `u64`.
* C88 (`ctype_zero_sized_refuted`): a union of zero bytes with an alignment (`[u32; 0]`) gets the C type `()`.
* C88 (`ctype_any_bytes_refuted`): a `repr(align)` struct is its own C type, niches included.
* C89 (`vecmem_overaligned_refuted`): with elements aligned more than `AllocPrefix`, the layout asked for (`alloc/mod.rs:360-365`) is neither aligned for them nor has room for the shift of `init` (330-352): the first push may write past the block.
* C89 (`vecmem_overflow_refuted`): the size of a block is a wrapping product; `reserve(2^60 + 1)` of 16-byte elements succeeds with room for one, and `extend` (`vec.rs:562-564`), which trusts the upper bound of `size_hint` and does not look at the capacity, then writes out of the block, in safe code.
* C89 (`vecmem_empty_boxed_refuted`): a boxed slice made from an empty vector with a capacity leaks its block (`boxed.rs:438-445` frees only if the length is not 0); `try_push` on one without capacity reads a prefix below the dangling address (`boxed.rs:311-316`).
* C90 (`call_uninit_refuted`): `MaybeUninit<NonZeroU8>` has the report of `NonZeroU8` (`stable_impls/mod.rs:535-551`), so a caller that declares the former is handed a function of the latter and may give it a zero.
* C90 (`call_prefix_refuted`): `is_compatible` stops at the shorter list of fields (`report.rs:66-77`), so a caller for which a struct has fewer fields is handed the function, which then reads beyond the bytes it was given.
* C91 (`shmem_empty_alloc_refuted`): `ArcSlice::from` of a vector without capacity allocates a block but writes the allocator through `slice.start`, the vector's dangling pointer, not through `start` (`sync.rs:527`); with an allocator that has a size this writes outside every block.
* C91 (`shmem_empty_leak_refuted`): with an allocator without size, turning such a slice back into a vector (`sync.rs:540-563`) gives one whose capacity is 0, so the block is never freed.
* C92 (`generics_order_refuted`): with a constant before a type (`struct S<const N: usize, T>`), `SeparatedGenerics` prints types before constants (`utils.rs:25-37`), so the implementation is for `S<T, N>`, which Rust refuses.
* C92 (`generics_tuple_refuted`): `struct S<T>(T) where T: Clone;` becomes `struct S<T> where T: Clone (T);` (`structs.rs:166`), which does not parse.
* C92 (`generics_comma_refuted`): for `repr(stabby)` the user's predicates are followed by `#layout: IStable` (`enums.rs:539,555,600`); without a comma at the end of the user's clause this does not parse.
* C92 (`generics_default_refuted`): `repr(stabby)` enums print `impl #generics` (`enums.rs:612`), so a default is a syntax Rust refuses.
* C92 (`generics_bounds_refuted`): unions and sized enums use `generics.params` as arguments (`unions.rs:69,89`, `enums.rs:149,309`), so any bound, constant or default does not parse.
* C92 (`generics_where_refuted`): unions and sized enums drop the where clause (`unions.rs:83-85`, `enums.rs:300`).
* C93 (`fn_const_unsafe_refuted`): the words are printed `#unsafety #constness #abi` (`functions.rs:155`), so `const unsafe fn` becomes `unsafe const extern "C" fn`, which does not parse.
* C93 (`fn_where_refuted`): `#generics` prints no where clause (`functions.rs:155`); the function is generated without its own.
* C93 (`fn_async_refuted`): the body of an async function is put in `async {..}`, not `async move {..}` (`functions.rs:149`), so one that reads its inputs is refused by the borrow checker; no test has an async function.
* C93 (`fn_types_refuted`): `AssertStable::<!>` and `AssertStable::<impl Trait>` are not accepted, so functions that never return or take `impl Trait` cannot be stabby's.
* C93 (`export_async_refuted`, `export_input_refuted`): the type written by `export` is `async fn(..)` for async functions, has the patterns of the inputs (`mut x: T` is not allowed there) and elided lifetimes (the type is then `for<'a> ..`, which does not implement `IStable`).
* C94 (`dynptr_ref_many_refuted`, `dynptr_ref_one`): a reference to an object with two bounds must be written `&'a (dyn A + B)`, which the parser gives as a type in parentheses, and `dynptr!` panics on it (`lib.rs:195-197`); so references to objects have one trait, without `Send` or `Sync`, although the README says that any number of traits is supported.
* C94 (`dynptr_elided_refuted`): `dynptr!(&dyn T)` is `DynRef<'static, ..>` (`lib.rs:230`), not the elided lifetime.
* C94 (`dynptr_alloc_refuted`, `dynptr_qself_refuted`, `dynptr_group_refuted`): `Box<dyn T, Alloc>` is refused although stabby's own pointers have that parameter; `<F as P>::Ptr<dyn T>` becomes `P::Ptr<()>`; objects that go through a `$t:ty` of `macro_rules!` are refused.
* C95 (`import_scope_refuted`, `import_shadow_refuted`, `import_super_refuted`): `#[stabby::import]` puts the block in a module of its own without `use super::*` (`functions.rs:490-501`): a type of the user's module that is named as usual is not found, a type that hides one of the prelude (`use stabby::string::String`) silently becomes that of the prelude, and `super::T` silently becomes the `T` of the user's module.
* C95 (`import_link_refuted`): `#[stabby::import]` and `#[stabby::import(canaries = "..")]` without the name of a library generate `#[link()]` (`functions.rs:493`), which Rust refuses.
* C95 (`import_unwind_refuted`): `extern "C-unwind"` functions are stable types, but their import without canaries is refused, as `CheckedImport::new` takes functions in convention C (`checked_import.rs:85-100`) and the block gives its own convention to them.
* C95 (`import_static_refuted`, `import_lifetimes_refuted`, `import_variadic_refuted`, `import_cfg_refuted`): statics panic; `fn f<'a>(..)` becomes the type `fn<'a>(..)`, which is none; `...` is lost without canaries; a function whose `#[cfg(..)]` does not hold is imported without canaries and makes the block invalid with them.
* C96 (`trait_types_colon_refuted`): in `<T as ::krate::Trait>::A` the `::` is lost (`traits.rs:1241-1250` does not look at `leading_colon`), so the generated code means `krate::Trait` of the scope.
* C96 (`trait_types_qself_refuted`): `<Self as Trait>::A` and `<T>::A` panic on an `unwrap` (`traits.rs:1148`), although `Self::A` is supported.
* C96 (`trait_types_paren_refuted`): `&(T)` panics (`todo!`, `traits.rs:1273`) while `&T` is taken.
* C97 (`generic_trait_unused_type_refuted`, `generic_trait_unused_param_refuted`): `trait Tr { type A; extern "C" fn f(&self); }` does not compile with `#[stabby::stabby]`: the vtable gets a parameter for `A` (`traits.rs:504-532`) that no field mentions (E0392). The same for a type or lifetime parameter of the trait that no method mentions.
* C97 (`generic_trait_where_refuted`): the where clause of a trait is dropped (only `generics.params` is looked at, `traits.rs:607`), so `trait Tr<T> where T: Clone` does not compile while `trait Tr<T: Clone>` does.
* C97 (`generic_trait_outlives_refuted`): `type A: 'static;` gives `_stabby_unselfed_0: 'static` without a comma (`traits.rs:555`), an error of syntax in the implementation of `IConstConstructor`.
* C97 (`generic_trait_unsized_refuted`): the `?` of `type A: ?Sized;` is dropped (`traits.rs:346-355`), so the generated code asks for `A: Sized`.
* C97 (`generic_trait_const_refuted`, `generic_trait_lifetime_refuted`, `generic_trait_default_refuted`): `vt_generics::<false>` (`traits.rs:504-532`) prints constants and lifetimes as declared where arguments are expected, and `vt_generics::<true>` prints defaults in implementations; `vt_signature` (`traits.rs:660-666`) has no constants.
* C97 (`generic_trait_super_refuted`): a supertrait with an associated type makes the generated code fail: `dyn Tr` lacks a binding for it, and `<.. as Tr>::X` (`traits.rs:667`) names it in the wrong trait.
* C98 (`tyargs_literal_refuted`): `version = 0x10`, `1_000` or `10u32` make the macro panic: the text of the literal goes to `u32::from_str` (`structs.rs:40`) instead of `base10_parse`.
* C98 (`tyargs_two_modules_refuted`): a second `version` replaces the first, a second `module` is appended to the first, giving `Str::new("a" "b")`. Likewise, commas behind `no_opt` and `version` may be left out, but what follows `module = ..` without a comma is swallowed (`structs.rs:44-51`).
* C98 (`tyargs_module_comma_refuted`): `module = f::<A, B>()` is refused: the comma between angle brackets ends the expression.
* C99 (`enum_names_prelude_refuted`, `enum_names_struct_refuted`): the names of variants become parameters of the match functions (`enums.rs:620-648`), and a parameter that has the name of a unit or tuple struct, constant, static or variant in scope is a pattern, not a variable. So a `repr(stabby)` enum with a variant `None` or `Ok`, or the usual `Circle(Circle)` with `struct Circle(f32);`, does not compile, with an error in code that the user has not written.
* C99 (`enum_names_own_refuted`): a variant `this` in a half of several, or `a` with a payload, is shadowed in the generated closures; `stabby_ctx`, `match_ref` and so on are declared twice.
* C99 (`enum_names_types_refuted`): parameters or payload types `StabbyOut`, `StabbyCtx`, `'st_lt` or `<Variant>Fn` meet those of the generated functions.
* C99 (`enum_names_shapes_refuted`): several fields, named fields, discriminants, a single variant, or no field at all make the macro panic, though the documentation only speaks of the lack of pattern matching.
* C100 (`closure_stable_refuted`): the vtable of `dyn FnOnce(A) -> O` asks only `O` to be stable (`gen_closures.rs:52`), those of `FnMut` and `Fn` ask nothing, since `CallMut` and `Call` are not `checked` (`gen_closures.rs:104-128`). So `Box<dyn FnOnce(std::string::String)>` counts as ABI-stable.
* C100 (`closure_report_refuted`): the reports of these trait objects only tell the kind and the number of inputs; a library's `dyn FnOnce(u32)` is accepted where `dyn FnOnce(&String) -> u8` is asked for.
* C100 (`closure_arity_refuted`): there is no trait for ten inputs or more.
* C101 (`alias_hex_refuted`): powers of two above 1000 have a decimal name only: there is `U1024` but no `Ux400`, although powers of ten have names in all three bases (`build.rs:57-64`).
* C101 (`alias_doc_refuted`): `U10000`, `Ux2710` and `U10pow4` are documented as `/// 4`: the exponent instead of the value (`build.rs:50-54, 60-62`).
* C101 (`alloc_wasm_refuted`): with feature `libc` but not `alloc-rs`, on wasm32, the script sets `stabby_default_alloc = "LibcAlloc"`, but that type is only there on other targets (`build.rs:131`, `alloc/allocators/mod.rs:1-5`): the crate does not compile.
* C101 (`alloc_given_refuted`): the cfg does not override the allocator "regardless of feature flags" (`alloc/mod.rs:53`): the type of the allocator is behind its feature.
* C102 (`pod_sizes_refuted`): `#[repr(align(8))] struct Marker;` is given the layout of `()`, with alignment 1 (structs.rs:177-191), though Rust aligns it to 8; the generated check of the alignment is only made where the identifier of the type is used.
* C102 (`pod_padding_refuted`): `struct P { a: u16, b: u8 }` is `IPod`, but a byte of it is padding and need not be initialised: the `from_raw_parts` of `istable.rs:92-95`, said to be always safe to send, reads it.
* C102 (`pod_uninit_refuted`): `MaybeUninit<NonZeroU8>` is `IPod` with the identifier of `NonZeroU8`: a zero may be received as a `NonZeroU8`.
* C102 (`pod_align_refuted`): `repr(align(..))` is not part of the identifier: a value may be read from fewer bytes than it has.
* C102 (`pod_u64_refuted`): neither is the alignment of u64: 32-bit x86 and riscv32/wasm32 have the same `ARCH_INFO` (`report.rs:153-163`), but `struct { u32, u64 }` has 12 bytes on the one and 16 on the others.
* C103 (`set_debug_refuted`): `Debug` of `ArcBTreeSet` writes the nodes of the tree as sets in sets: equal sets print differently, depending on the order of insertion (`arc_btree.rs:217-237`).
* C103 (`hex_nested_refuted`, `hex_fill_refuted`): `{:x}` of nested vectors is the same however they are split; also of flat ones when filled with a digit (`vec.rs:595-620`).
* C103 (`ints_debug_refuted`): with a width and a digit as fill, different integers print alike, as in core (`num.rs:277-316`).
* C103 (`narrow_display_refuted`): `iN::MIN` displays as `2^(N-1)`, a positive number (`num.rs:424-428`, with the constant of C43).
* C103 (`report_display_refuted`): `Display` of reports separates module and name by ` :: `, so names with blanks make different reports look alike (`report.rs:37-52`).
* C104 (`check_missing_refuted`): all impls for primitive types say "Automatic checks verify this", but 19 types are checked only; the check would fail for `c_void` (C65) and for `Ordering`, which has niches that `HasExactlyOneNiche = B0` denies (`stable_impls/mod.rs:991`).
* C104 (`check_float_refuted`): nothing checks f32 and f64.
* C104 (`check_align_refuted`): alignments are compared as u8, so 256 and 512 are the same (`stable_impls/mod.rs:150-151`).
* C104 (`check_niche_refuted`): a wrong claim of several niches is not noticed (`stable_impls/mod.rs:220`).
* C104 (`check_message_refuted`): `fmt2digit` writes 128 as `<8`; a message about `NonZeroUsize` with everything wrong does not fit the buffer of 1024 bytes and is lost.
* C105 (`alloc_safe_refuted`): `IStableAlloc::free` and `realloc` document what the caller must guarantee but are safe functions, implemented for every allocator (`alloc/mod.rs:159,166,186-201`): safe code can free any address.
* C106 (`int_cross_refuted`): the report of `NonXU8<FORBIDDEN>` leaves FORBIDDEN out (`num.rs:166`), so a `NonXU8<5>` holding 3 is accepted as a `NonXU8<3>`, where it is 1. (Reading the same lines: narrow integers `u1` to `i127` implement no `IStable`, although their documentation says that stabby uses their bits.)
* C107 (`like_refuted`, `like_fields_refuted`, `like_forges`): `StableLike::new` is a safe function (`lib.rs:222`) although only sizes and alignments are checked. `StableLike<u8, bool>` holding 2 turns an `Ok` into an `Err`; fields placed where `As` has padding are overwritten; and `Result<StableLike<(u8, u64), (bool, u64)>, &T>` turns any number into a reference, in safe code. (`like_pod_refuted`): `VtDrop` describes its function pointer as a `NonZeroUsize` (`vtable/mod.rs:352`), so it is `IPod`, data that may be sent to another process.
* C108 (`no_niches_refuted`, `no_niches_report_refuted`, `pad_report_refuted`): `NoNiches<Size, Align>` only has a `Size::Padding` (`lib.rs:286-287`), of alignment 1 whatever `Align` is, so a field of that type makes the layout check of the struct fail. Its report is just the name (`lib.rs:305`), so that `StableLike<T, NoNiches<U4, U4>>` and `StableLike<T, NoNiches<U16, U8>>` have compatible reports and the same identifier; so do paddings of all sizes (`unsigned.rs:512`).
* C110 (`vt_config_refuted`, `vt_vector_broken`, `vt_no_alloc_unheard`, `vt_old_nightly`): `#[cfg(.. not(stabby_vtables))]` (vtable/mod.rs:208, 218, 234) asks for the *name* `stabby_vtables` without a value, so it holds also when `--cfg stabby_vtables="vec"` or `"no_alloc"` is given. On stable and beta toolchains from 1.78, `"vec"` therefore compiles two statics named `VTABLES` (an error: the option is unusable unless the bare name is given too), and `"no_alloc"` is not heard: vtables still go to the global tree. Nightly toolchains before 1.78 compile two traits named `IConstConstructor` (an error). Without an allocator, on stable from 1.78, `compile_error!` (vtable/mod.rs:244) refuses the whole crate, trait objects used or not. The README (lines 9-11) says that the set is a vector; it is a tree by default.
* C111 (`load_stabbied_nul_refuted`, `load_stabbied_reserved_refuted`, `load_canaried_defined_refuted`): `get_stabbied` and `get_canaried` append their suffix to the bytes they are given (libloading.rs:79, 89, 121). Names ended by NUL, which libloading's own `get` accepts, therefore have a NUL inside and are never found: `get_stabbied(b"f\0")` is always an error, `get_canaried(b"f\0")` finds the function and then no canary. The message for a missing canary makes a `str` of the name with `from_utf8_unchecked` (libloading.rs:124): with a name that is not UTF-8 and is found, that is undefined behaviour. A function whose own name is `f_stabbied_v3` is called as if it checked a report when `f` is asked for; `f` exported with `#[stabby::export]` beside it does not compile.
* C112 (`numops_signed_fmt_refuted`, `numops_unsigned_fmt_refuted`, `numops_signed_mask_refuted`): formatting of narrow integers formats the stored integer (num.rs:277-316, 419-458), not `get()`. `i6::MIN` prints `32` though its value is -32; without overflow checks `u6::new(1).unwrap() - u6::new(2).unwrap()` prints `255` though `get()` is 63; `i6::new(-3).unwrap() & 127` prints `125` while `get()` is -3.
* C113 (`numtable_signed_i4`, `numtable_signed_refuted`): of the 123 signed narrow integers, only `i4` has the right `MAX` and accepts all integers of its number of bits (num.rs:397-408); `i1::new(0)` is `None`. Also, against their documentation (num.rs:248-253, 381-386), no narrow integer is `IStable`, so stabby cannot use their unused bits: there is no impl for them in stabby-abi.

## 6. Wrong programs

`seeded/mutate.py` copies the development, edits one definition of the model as a realistic bug would, rebuilds,
and reports which theorems are lost (a broken proof is replaced by `Admitted` *in the scratch copy*, and
`Print Assumptions` then tells which theorems depended on it). `seeded/LOG.jsonl` has one line per attempt. Edits
that no theorem noticed led to the theorems named in `tightened`.
