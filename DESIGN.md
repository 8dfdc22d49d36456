# Formal model of khonsulabs/justjson in Rocq/Coq 8.16.1

## 1. Approach

The crate is a pure library, so the model is a set of total, computable Gallina functions that
transcribe the Rust functions one by one (each definition cites file and lines).

* bytes and chars are `N`; byte strings are `list N` (`Forall (fun b => b < 256)` where it matters);
  offsets and lengths are `nat`; `usize` arithmetic that can overflow or that is used as a bit field
  (`JsonStringInfo`) is `N` with explicit masks / `checked_add`, for 32- and 64-bit `usize`.
* `&mut self` becomes a returned state. `Result`/`Option` stay data.
* every panic path (`unreachable!`, `expect`, index/slice out of range, arithmetic overflow) and every
  undefined-behaviour condition of an `unsafe` call (`from_utf8_unchecked` on invalid data,
  `from_u32_unchecked` on a non-scalar) is an explicit `Fault` value, so "does not panic / is sound"
  is a theorem, not an assumption. Fuel exhaustion is also a `Fault`, excluded by theorem.
* the `ParseDelegate` trait is a record of functions over abstract types; the parser is generic in it.
* `fmt::Write` is an arbitrary state machine that may fail; `Hasher` is the sequence of `write` calls.

Layers (files in rocq/theories; all are listed in rocq/_CoqProject):

| kind | files |
|------|-------|
| model of the code | Base, Utf8 (std UTF-8 routines), StrModel (string.rs, anystr.rs), ErrorModel + ErrorDisplay (error.rs), Tokenizer + Parser (parser.rs), ValueModel + ObjectModel (value.rs), DocModel (doc.rs), NumModel (number.rs, `from_json` of strings and numbers, std integer parsing) |
| independent specifications | Spec (RFC 8259 grammar and trees), SpecLex (lexemes), SpecNum (value of a literal), SpecStr (items of a string content), SpecWrite (layout of a tree), SpecError (which text is wrong where), SpecCall (callbacks of a text and their offsets), the UTF-8 part of Utf8, View (what a caller sees of a Value/Document) |
| proofs | Utf8Facts, TokBase, TokStr, TokNum, TokFacts, ErrTok, ParserGen, Trace, ParserSound, ParserComplete, ErrSound, ErrComplete, ErrFinal, ErrPlace, Sim, SimInst, StrSpec, StrFacts, StrEsc, StrWf, StrObt, StringScan, ParseMain, DocFacts, GrammarFacts, Lexemes, WriteFacts, WriteGrammar, WriteStops, CallSound, CallExact, OwnKinds, ... |
| property theorems | Prop*.v: every Theorem/Corollary there whose name starts with a property id is in MANIFEST.json; concrete cases (`Example`) beside them |
| hypotheses are met | Wit*.v: every theorem of Prop*.v that has hypotheses is applied to a concrete, non-trivial case (`at_<theorem>`), with every hypothesis discharged |
| ModelTests | model validation, not proof: the repository's own tests (318 JSONTestSuite files, 36 json.org files, 27 round-trip files, the unit tests of src/ and the two examples) evaluated on the model and compared with what the Rust tests assert; generated by tools/model_tests.py, no claim rests on it |
| Assumptions.v | generated by tools/manifest.py: `Print Assumptions` for each manifest theorem |

Main proof route:
1. UTF-8: validator = "is an encoding of scalar values"; encode/decode inverse; order preserving.
2. Tokenizer: number/string token <-> grammar; progress; str/bytes agreement.
3. Parser: (a) simulation theorem: parsing with ANY delegate = running that delegate as a stack
   machine over the callback trace recorded by a trace delegate; (b) trace parse succeeds <->
   RFC 8259 grammar, by induction on fuel (sound) and on derivations (complete).
   All entry points are instances.
4. Strings: closed forms of Decoded and AsJson; equality, order, hash in terms of decoded text.
5. Writer: closed form; output is in the grammar; re-parse.

## 2. Properties: how each is modelled and proved

* **C01** Accepts exactly JSON: Grammar `Spec` inductive over bytes; soundness by induction on parser fuel, completeness by induction on derivations.
* **C02** The parsed value is the tree the text denotes: Same theorem, carries the tree.
* **C03** str and bytes entry points agree: Tokenizer step equality on sources that are valid UTF-8, lifted through the generic parser.
* **C04** Only valid UTF-8 is ever exposed as str: unsafe conversions are guarded by a Fault in the model; theorem: no Fault, plus validity of each source; acceptance => whole input valid.
* **C05** Parsing never panics and always terminates: No `Fault` (incl. fuel) for any input/config.
* **C06** Trailing commas exactly as configured: Grammar has a trailing-comma flag; theorem for both settings; PropTrail.v: deleting the extra commas gives a text accepted without the option, with the same value.
* **C07** Recursion limit is exact: Grammar derivations carry depth; theorem for every limit.
* **C08** Root type restriction: Root predicate in the spec.
* **C09** All entry points agree: Corollary of the delegate simulation theorem.
* **C10** The validator reports the kind of the value: Corollary of the delegate simulation theorem.
* **C11** Document to Value conversion is lossless: Machine run of the Nodes delegate on the events of a tree = flatten; hydrate (flatten v) = v.
* **C12** Document nodes are the preorder of the tree with exact lengths: As C11.
* **C13** Skipping and reading a value from a DocumentIter agree: Induction on the tree; skip/next_value on `flatten v ++ rest`.
* **C14** Bounded documents: exact capacity: Nodes delegate with optional capacity; simulation.
* **C15** Delegate callbacks depend only on the input: Delegate simulation theorem over arbitrary delegate records.
* **C16** Error offsets stay inside the input: Invariant over tokenizer and parser.
* **C17** Tokenizer progress and termination: Invariant over tokenizer calls.
* **C18** peek predicts and never loses a token: Case analysis on the first byte; peek commutes with next.
* **C19** next_or_eof agrees with next: Direct.
* **C20** Number tokens are RFC 8259 numbers, longest match: Number automaton <-> grammar; longest match lemma.
* **C21** String tokens are RFC 8259 strings: String loop <-> grammar.
* **C22** Decoded text is what RFC 8259 says: Expected refuted (\b decodes to U+0007; `|` instead of `+` in surrogate merge); exact characterisation + partial theorem.
* **C23** Decoding parsed strings never panics and yields only scalar values: Closed form of Decoded on token sources; no Fault.
* **C24** decoded_len is the UTF-8 length of the decoded text: Token part proved; refuted for From<&str> with U+0080..U+00FF.
* **C25** Equality with str is equality of decoded text: From C23/C24.
* **C26** Equality of JsonStrings is equality of decoded text: Expected refuted (JSON vs raw length shortcut compares encoded lengths); partial for same-representation pairs, soundness always.
* **C27** JsonString equality is an equivalence relation: Reflexive + symmetric proved; transitivity expected refuted.
* **C28** Ordering is the order of the decoded text: UTF-8 order preservation + closed form.
* **C29** Ordering is consistent with equality: Partial + refuted as C26.
* **C30** Equal strings hash equally: Byte stream equality proved; refuted for hashers sensitive to write-call boundaries.
* **C31** From<&str> keeps the text: Closed form of From.
* **C32** Escaping produces a JSON string denoting the text: Expected refuted (control characters: nibbles reversed, letter offset wrong); partial for texts without those characters.
* **C33** len is the length of the JSON encoding: Partial + refuted (U+0080..U+00FF counted as one byte).
* **C34** as_str, decode_if_needed, escape_if_needed and as_json_str are consistent: Direct from the closed forms.
* **C35** Compact serialization round-trips parsed values: Writer closed form is in the grammar, then C01/C02.
* **C36** Compact serialization removes exactly the insignificant whitespace: Independent strip function over bytes; induction on the tree.
* **C37** Pretty serialization is JSON and round-trips: Writer closed form in the grammar.
* **C38** Serialization of built values round-trips: Partial + refuted as C32.
* **C39** Writers receive a prefix, errors are propagated: Writer as arbitrary failing state machine.
* **C40** Object lookup finds the first matching key: List induction, using C25.
* **C41** Array indexing: Direct.
* **C42** Integer conversions are exact or None: std integer parsing is transcribed; equivalence with mathematical value.
* **C43** Float conversions accept every JSON number: Grammar inclusion into the documented grammar of f64::from_str; the numeric value is C83.
* **C44** Iterator size hints are valid bounds: Lower bound proved, upper bound expected refuted.
* **C45** Building strings from text does not panic: checked_add modelled as Fault; bound by 6*len.
* **C46** JsonString::from_json and JsonNumber::from_json accept exactly one string / number: StringParser/NumberParser delegates, simulation theorem.
* **C47** Config builders set exactly one field: Record algebra.
* **C48** Whitespace between tokens is insignificant: From the grammar theorem.
* **C49** Truncated containers are rejected: Parser extension lemma.
* **C50** End-of-input errors point at the end: Invariant over tokenizer and parser errors.
* **C51** JSON texts are unambiguous: mutual induction on the grammar alone (SpecUnique.v): a value followed by a byte that cannot continue a number ends in one place only; no bound on lengths and no reference to the parser.
* **C52** Parsed strings and numbers borrow from the input: Invariant: sources are slices.
* **C53** Ownership is invisible in AnyStr: Direct.
* **C54** Value equality is structural: Induction on trees.
* **C55** Error conversion keeps kind and offset: Direct + simulation.

* **C56** The reported error: `SpecError.text_error` describes ill-formed texts with kind and offset; soundness by induction on the parser's fuel, completeness by induction on the description.
* **C57** Errors inside the input are final: induction on `text_error`: an error strictly before the end persists under extension.
* **C58** The first error is reported: induction on `text_error`: what lies before it can be completed to a JSON text.
* **C59** Recursion limit adds only its own error: `text_error` with and without limit; nesting counted by an independent scan over bytes.
* **C60** Error texts: `Display` modelled with std's decimal formatting; injectivity by cases; expected refuted in part.
* **C61** JsonStringInfo: bit-field algebra on `N`.
* **C62** Accessors: case analysis + C01/C02.
* **C63** From conversions: closed form of `JsonString::from`.
* **C64** Serialization is built from the parts: writer closed form, structural induction.
* **C65** Walking a document: invariant "remaining nodes = suffix of the preorder of a forest", for every program of calls.
* **C66** Offsets of delegate errors: `SpecCall` relates texts and callbacks with offsets; a Hoare-style triple for every delegate (sound), a delegate failing at callback number n (complete, unique).
* **C67** Offsets of PaylodTooLarge/ExpectedString/ExpectedNumber: C66 + invariants of the delegates' states.
* **C68** Sizes: induction on the grammar.
* **C69** Editing objects: `Vec` methods from their std documentation; list induction.
* **C70** Parsing is built from the parts: from C01/C02 and the grammar.
* **C71** Recursion depth: the recursive function's fuel is the number of nested calls; equality of runs with different fuel while
  at most `d` levels remain (depth counter) or at most `k` bytes remain (positions, ParserGen); exactness on `[`^k by induction;
  hydrate/skip by induction on the value; the serializer likewise against a version with room for `calls` nested calls.
* **C72** Callback protocol: a Hoare logic over `recording D` for arbitrary `D`, invariant `uses` (explicit transition relation of
  allowed callbacks and handles) together with depth counter + open containers = limit.
* **C73** Document equality: `document_eq` (derived PartialEq) is added to DocModel; preorder node lists determine the tree.
* **C74** Char iterators: a loop over `decoded_next`/`as_json_next` with results compared to `one_by_one`; None is absorbing by case analysis of the model functions.
* **C75** Sizes of decoded and escaped text: induction over the items of a string content / chars of a text.
* **C76** Serialized text identifies the value: C36/C37 layouts plus uniqueness of the grammar (C51) and of lexemes; the escape table is a prefix code.
* **C77** Every tokenizer call is determined by the bytes ahead: exactness from both directions of the token lemmas (ErrTok), a compositional "where does an error leave the iterator" predicate for all kinds but KUtf8, and the five ways of giving up a string for KUtf8.
* **C78** The number of callbacks is linear: every byte consumed earns 3 credits, every callback costs 2; a Hoare logic with a credit pre/postcondition over the recording delegate.
* **C79** A more permissive configuration only removes its own errors: a relational logic `follows` between the two runs (same iterator, same delegate state, at least as much depth left), one lemma per primitive.
* **C80** Causality: a relational logic `cut` between the run on `p` and the run on `p ++ y` (same position, same delegate state, or the first run has stopped and its log is a prefix); tokens by soundness on `p` and completeness on `p ++ y`.
* **C81** Portability: `widen` translates the packed info word; strings by rewriting with the exactness of the packing (C61), values by the representation theorem (C02) and exact errors (C56), arbitrary delegates by a relational logic `port` between the two runs.
* **C82** Any node collection: the delegate over an abstract collection; a simulation against the reference delegate whose state invariant replays the callbacks on the collection; `store` is the specification, by induction on the value.
* **C83** Nearest floats: SpecFloat (rationals, normal forms, nearest-even, overflow bound); FloatFacts proves an executable rounding of p/q meets it, uniqueness, monotonicity, exactness; C43 gives the decimal number that is read.
* **C84** Tokenizer and parser: SpecTok gives the token sequence of a value; both readers are related through lexemes (Lexemes.v) in both directions.
* **C85** Display of strings: DisplayModel transcribes the loops into an arbitrary fmt::Write (and Debug of JsonStringInfo as text, C61); a strictly decreasing measure shows the fuel suffices, C39's `replays` states the calls.
* **C86** Paths: `replaced` is a small relation (first matching entry / index); chains of accessors are folded over the model's accessors and related to it by induction on the path; C64 gives the text.
* **C87** Borrowing: variants of AnyStr are part of the model; C75 (decoding an escape always shortens) and strict growth of escaping show that changed and unchanged texts differ.
* **C88** ABNF: SpecAbnf.v is a deep embedding of ABNF and a literal transcription of RFC 8259's rules over code points; AbnfFacts.v proves it equivalent to Spec.v's byte grammar (least-reading argument one way, mutual induction the other), so C01 transfers.
* **C89** linear time: LookModel.v repeats Tokenizer.v and Parser.v with a log of the positions looked at (erasure proved in LookFacts.v); PropTime.v proves amortised bounds on its length (each byte consumed earns 9, each access costs 2).
* **C90** what is looked at: two runs of LookModel.v on inputs that agree on the log are equal (LookLocal.v: positions consumed are logged, by relational triples over two inputs with different fuel), and per-position budgets bound the looks at one position (LookEach.v).
* **C91** parametricity: a binary logical relation over the parser monad (PropParam.v); homomorphisms, pairs of delegates and folds over the Value are instances.
* **C92** ReleaseModel.v copies the functions whose arithmetic wraps in release builds; they are proved equal to the checked ones (PropRelease.v).
* **C93** The writer is run on a destination that records its calls; an invariant over the recorded calls is kept by every step (PropProgress.v).
* **C94** By induction over SpecError's description of wrong tokens every token error is behind UTF-8 text; a Hoare logic over the parser (any delegate) carries this to all errors (PropBoundary.v).
* **C95** From C64 (compact text has no control characters) and C35 (round trip); reading lines is a separate function (PropLines.v).
* **C96** The derived comparisons are modelled in EqModel.v; tokens from C26 on parsed strings, results from C05 and C54 (PropEq.v).
* **C97** The derived `Debug` implementations are trees handed to std's builders (DebugModel.v); the printed text of such a tree determines the tree (render_inj, by induction on the tree with what may follow), and the tree the value (PropDebug.v).
* **C98** Induction on the value over the token sequence of C84; `placed` (PropOrder.v) is disjointness in order.
* **C99** A state machine of clients (PropClient.v): `holds` is the set of things a history of calls can give; the invariant `sound` is preserved by every call (from the theorems about each call), and `C99_what_a_program_can_hold` shows it is exact, so the predicates the other properties range over are neither too wide nor too narrow.
* **C100** A Hoare logic over the parser for arbitrary delegates (PropTold.v): the invariant says that the recorded callbacks are the tokens the Tokenizer returns (colons and commas left out), or all but the token just read; the spec is `told` and `first_tokens`.
* **C101** The run under the configuration is compared with the run under its tolerant version (trailing commas and scalars at the root allowed), where no questions are asked, so that every delegate runs along with Value's (C91); what that returns is the spec's `json_text` (C01) or `wrong_at` (C56). Delegates that lie about emptiness in both directions are the concrete cases (PropRefuse.v).

## 3. Trusted base

* **Kernel.** Coq 8.16.1's kernel (and coqchk, which vcheck's verdict uses). Only the standard library is used. `Print Assumptions`
  prints "Closed under the global context" for every theorem of MANIFEST.json (rocq/theories/Assumptions.v, printed by the build):
  no theorem rests on any axiom. coqchk additionally lists seven constants of `Coq.ssr.ssrunder` (Under_rel.*); they are the
  fields of an opaque module of the standard library that is loaded along with `lia`'s dependencies; no theorem depends on them.
* **No** axioms, Admitted, section-less Variables/Hypotheses, functors, module types, disabled kernel checks, plugins of our own.
* **The reading of the source.** Each definition cites the lines it transcribes. What is modelled (function by function):
  all of src/parser.rs (ByteIterator, Tokenizer with both guarantees, ParseConfig, ParseState, ParseDelegate, Parser, the
  delegate `()`), src/string.rs, src/anystr.rs, src/number.rs, src/doc.rs (any backing in CollectionModel.v; Vec and heapless::Vec in DocModel.v), src/error.rs
  (kinds, conversions, Display), src/value.rs (Value, Object, Entry, ValueParser, accessors, indexing, From conversions, writer and
  pretty writer). `tools/coverage.py` lists the functions of /repo/src that no model comment cites: unit tests and one-line
  wrappers (`as_ref`, `borrow`, `deref`, `iter`, `push_*`, `kind`, `offset`, `new`) whose bodies are used inline.
* **Assumed about std / the language** (part of the model, not proved): UTF-8 validation accepts exactly RFC 3629 (the model's
  validator is proved equivalent to the specification; that std's is too is assumed); `char::len_utf8`, `encode_utf8`, `chars()`;
  integer `FromStr` as documented (transcribed in NumModel.v); `fmt::Write::write_char` defaults to `write_str` of the encoding and
  `write!` with a literal is one `write_str` (Display pieces); `Vec` and slice methods as documented; `isize::MAX` bounds every
  slice; derived PartialEq/Clone are structural; `Hasher` is its sequence of `write` calls.
* **Not modelled:** the algorithm of std's float parsing (its contract, correct rounding, and its reading of the text are), the single `write_str` calls of `Debug` (its text is, C97; std's Unicode tables are a parameter),
  `with_capacity`, allocation failure, running time except for the accesses to the input counted in LookModel.v, native stack exhaustion (but see the recursion bounds), lifetimes/borrowing (checked by rustc), tests, benches, fuzz, xtask.
* **Simplifications:** loops and recursion take fuel; running out is `Fault FFuel`, excluded by theorem for all inputs. The
  delegate is a record of state-passing functions that may return a value, an error or a panic. `usize` is 32 or 64 bits
  (parameter `pwidth`); debug-build overflow checks are on (an overflow is a Fault); C92 covers builds without them.

## 4. Wrong programs

seeded/LOG.jsonl records every edit tried on a scratch copy of the model (rounds R1, R2, ...), the claim it breaks with a concrete
input where the edited model differs, and what failed. Edits that no theorem noticed led to new or tighter theorems (C56, C65, C66);
the log names them.

A build stops at the first lemma an edit breaks, which does not show that the theorem about the broken claim is false of the edited
program: it may only depend on that lemma. Round T (log ids T-…) checks that directly. tools/statements/mk.py makes a copy of the model
and the statements without the proofs (`Proof … Qed` becomes `Admitted`; scratch only, never committed as theories), run.py applies
an edit to it and proves `~ (statement of the theorem)` for the edited program from a concrete input, and checks that the
same script does not go through on the unedited program.
