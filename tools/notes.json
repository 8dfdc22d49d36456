{
 "C22": {
  "status": "partial",
  "note": "The full property is false of the code and refuted (C22_decoded_is_denoted_refuted): \\b decodes to U+0007, and surrogate pairs of even planes (U+20000.., merged with | instead of +) decode to another character. C22_decoded_exactly says what is decoded for every content; the _partial theorem is an iff: right exactly for contents without those items."
 },
 "C24": {
  "status": "partial",
  "note": "Proved for all parsed strings and for strings built from text in raw form; refuted for built strings kept in JSON form that contain U+0080..U+00FF (counted as one byte). C24_built_decoded_len_exactly gives the exact deficit."
 },
 "C26": {
  "status": "partial",
  "note": "Refuted: a parsed string with a needless escape and a built raw string with the same text compare unequal, because encoded lengths are compared. C26_eq_exactly characterises == on all pairs; C26_parsed_strings is the full property for two parsed strings."
 },
 "C27": {
  "status": "partial",
  "note": "Reflexive and symmetric proved for all; transitivity refuted (same cause as C26). C27_eq_transitive_exactly: given x==y and y==z, x==z holds exactly if x and z have the same form or the same len()."
 },
 "C29": {
  "status": "partial",
  "note": "Consistency with str comparison proved; cmp == Equal without == refuted (same cause as C26). C29_cmp_consistent_exactly: cmp is Equal exactly for equal texts, and == then holds exactly if forms or lengths agree."
 },
 "C30": {
  "status": "partial",
  "note": "Equal strings feed the same bytes to the hasher (proved), but in different chunks when one of them is stored with escapes; refuted for Hashers that are sensitive to chunking. C30_hash_exactly gives the exact chunks, C30_hashes_agree_exactly when exactly two strings feed the same chunks."
 },
 "C32": {
  "status": "partial",
  "note": "Refuted for control characters other than NUL, TAB, LF, FF, CR: the \\u escapes are written least significant nibble first and with 'a'+nibble, and U+0007 is written as \\b. C32_escaping_exactly / C32_crate_reads_back_exactly are iffs over every text."
 },
 "C33": {
  "status": "partial",
  "note": "is_empty proved in full; len refuted for raw strings with U+0080..U+00FF, exact deficit proved (C33_len_exactly)."
 },
 "C44": {
  "status": "partial",
  "note": "Lower bound proved in every state; upper bound proved for strings in JSON form and refuted for raw strings. C44_size_hint_exactly gives hint and remaining chars in every state of a raw string; C44_size_hint_upper_wrong_for_raw_ascii: for ASCII text kept raw the upper bound is always wrong at the start."
 },
 "C45": {
  "status": "proved",
  "note": "C45_from_exactly characterises the panic; parsing part: C05 theorems. The capacity hypothesis is necessary on 32-bit (C45_from_panics_on_huge_32bit_text); as_json() on a raw string needs twice the room (C45_as_json_exactly)."
 },
 "C38": {
  "status": "partial",
  "note": "Refuted as stated (C38_built_round_trip_refuted): control characters are escaped wrongly (C32) and U+0080..U+00FF are miscounted (C26/C33). C38_serializes_iff, C38_reparses_iff, C38_same_texts_iff and C38_round_trip_iff characterise, for every constructible value and every serializer, exactly when the text is produced, is accepted, denotes the same texts and compares equal; the _partial theorem is the property without the affected characters."
 },
 "C43": {
  "status": "proved",
  "note": "The float parser of core is modelled up to the decimal number it reads (sign, digits, exponent with its cap at 65536); the rounding is C83."
 },
 "C60": {
  "status": "partial",
  "note": "Refuted as stated (C60_messages_tell_errors_apart_refuted, C60_messages_show_the_character_refuted): ExpectedDigit and ExpectedDecimalDigit share a text, Unexpected prints the byte as a decimal number, UnclosedObject prints '}}'. The _partial theorem says exactly which errors share a text."
 },
 "C61": {
  "status": "proved",
  "note": "info_exactly covers every usize argument."
 },
 "C62": {
  "status": "proved",
  "note": "The first byte decides the accessor; scalars show their source text."
 },
 "C63": {
  "status": "proved",
  "note": "From bool/object/vec/JsonString/str/String and FromIterator."
 },
 "C69": {
  "status": "proved",
  "note": "Vec's methods are modelled from std's documentation."
 },
 "C64": {
  "status": "proved",
  "note": "Iff statements: the text of a container is composed of the texts of its parts, compact and pretty."
 },
 "C65": {
  "status": "proved",
  "note": "any_program: every sequence of next/next_value/skip calls on a document."
 },
 "C68": {
  "status": "proved",
  "note": "Numbers of nodes, depth and text lengths against the input length, with tight examples."
 },
 "C70": {
  "status": "proved",
  "note": "Iff in both directions, for arrays and objects."
 },
 "C66": {
  "status": "proved",
  "note": "value_upto/value_calls (SpecCall.v) describe callbacks and offsets as a relation on texts; soundness for every delegate, uniqueness, and completeness (every described callback is made, shown with a delegate that fails at a given number)."
 },
 "C67": {
  "status": "proved",
  "note": "Iff-style location of the first node that does not fit or of the first event of the wrong kind."
 },
 "C71": {
  "status": "proved",
  "note": "C71_calls_bounded says that the parser given room for that many nested calls computes the same result as the parser; C71_bound_is_exact that one call fewer runs out on an explicit family of inputs; C71_document_readers covers hydrate and skip; C71_serializer and C71_serializer_bound_is_exact cover write_json_value. Sizes of stack frames are outside the model."
 },
 "C72": {
  "status": "proved",
  "note": "The protocol is an explicit transition relation (callable/uses) written from the trait's documentation; no assumption on the delegate or the input. C72_invariants turns it into an induction principle for delegate authors."
 },
 "C73": {
  "status": "proved",
  "note": "document_eq models the derived comparison (lengths, then nodes with short circuit)."
 },
 "C74": {
  "status": "proved",
  "note": "pulls is a loop over next, independent of the collect loop of the model."
 },
 "C75": {
  "status": "proved",
  "note": "Exact counts; the bounds follow."
 },
 "C76": {
  "status": "proved",
  "note": "Values are compared with Coq equality (parsed strings borrow from the input, so the text they hold is all there is). C76_built_and_parsed_may_collide records that a string built from text may have the encoding of a different parsed string, because escapes are wrong (C32)."
 },
 "C77": {
  "status": "proved",
  "note": "token_then/token_error (SpecError), gives_up/resumes/peeked describe the text only."
 },
 "C78": {
  "status": "proved",
  "note": "An amortised (credit) argument. C78_bound_is_attained shows that the factor cannot be improved. Callbacks are the value-producing and error-returning methods; the two &self queries (kind_of, is_empty) are not counted."
 },
 "C79": {
  "status": "proved",
  "note": "Runs in which the delegate panics under the stricter configuration are excluded."
 },
 "C80": {
  "status": "proved",
  "note": "A digit at the end is excluded because the number may go on (C80_after_a_digit); apply the theorem to the part before the number then."
 },
 "C81": {
  "status": "proved",
  "note": "widen is the translation of the packed info word. The converse fails only where 32 bits run out (C45)."
 },
 "C82": {
  "status": "proved",
  "note": "CollectionModel.v is doc.rs with the collection abstract; DocModel.v is definitionally its instance at the crate's two collections (C82_crate_collections)."
 },
 "C83": {
  "status": "proved",
  "note": "std's contract (correctly rounded from_str) is modelled by an executable rounding of fractions, proved to meet the IEEE specification in SpecFloat.v (rationals); which decimal number std reads, including its cap on exponent digits, is transcribed. C83_long_exponents_refuted shows the proviso is needed."
 },
 "C84": {
  "status": "proved",
  "note": "Iff between parser and token sequence."
 },
 "C85": {
  "status": "proved",
  "note": "as_json() of a raw string needs recount_fits (see C32/C45: the second count may overflow near isize::MAX)."
 },
 "C86": {
  "status": "proved",
  "note": "Paths of any length; replaced describes the edit independently of the accessors."
 },
 "C87": {
  "status": "proved",
  "note": "held is the AnyStr inside; Borrowed/Owned are tracked by the model."
 },
 "C88": {
  "status": "proved",
  "note": "The rules are transcribed in SpecAbnf.v, independently of Spec.v."
 },
 "C89": {
  "status": "proved",
  "note": "LookModel.v instruments the model with a log of positions; LookFacts.v proves that erasing the log gives back the model. The delegate's own work and memory allocation are not counted (C78 bounds the callbacks)."
 },
 "C90": {
  "status": "proved",
  "note": "LookModel.v instruments the model with a log of positions; LookFacts.v proves that erasing the log gives back the model; C90_nothing_else_is_looked_at shows the log misses no access."
 },
 "C91": {
  "status": "proved",
  "note": "A relational parametricity theorem for the parser and its consequences."
 },
 "C92": {
  "status": "proved",
  "note": "ReleaseModel.v transcribes the wrapping arithmetic; equality with the checked model."
 },
 "C93": {
  "status": "proved",
  "note": "hands_text: every call's argument is UTF-8 and not empty."
 },
 "C94": {
  "status": "proved",
  "note": "Any delegate, truthful or not; the tokenizer until its first error."
 },
 "C95": {
  "status": "proved",
  "note": "lines is str::lines; C95_built_values needs no restriction on the strings."
 },
 "C01": {
  "note": "Iff with the grammar of Spec.v and depth <= 128; the _config theorems are the same for every configuration.",
  "status": "proved"
 },
 "C02": {
  "note": "Both directions: the returned value's tree is the one the text denotes, and every denoted tree (within the configuration) is returned.",
  "status": "proved"
 },
 "C03": {
  "note": "Equality of results for values, documents of any capacity, validators, any delegate, and tokenizer histories.",
  "status": "proved"
 },
 "C04": {
  "note": "str_unchecked faults in the model unless the bytes are UTF-8; no fault (C05) plus these theorems: every str handed out is a UTF-8 part of the input.",
  "status": "proved"
 },
 "C05": {
  "note": "Faults are panics, undefined behaviour and running out of fuel; none occurs, for every delegate that does not itself panic.",
  "status": "proved"
 },
 "C06": {
  "note": "accepts_exactly is the iff; the others say what a single extra comma does and that it never changes the value.",
  "status": "proved"
 },
 "C07": {
  "note": "Iff on the depth of the tree; without a limit every depth is accepted.",
  "status": "proved"
 },
 "C08": {
  "note": "Iff on the root, and the offset and kind of the error for scalar roots.",
  "status": "proved"
 },
 "C09": {
  "note": "Documents and validators are functions of the value result, errors included.",
  "status": "proved"
 },
 "C10": {
  "note": "The validator's kind is the kind of the value, errors included.",
  "status": "proved"
 },
 "C11": {
  "note": "Conversion gives back the very value, and never panics on a parsed document.",
  "status": "proved"
 },
 "C12": {
  "note": "The node list is the preorder; document_shape states it on the list alone.",
  "status": "proved"
 },
 "C13": {
  "note": "From every position in the preorder of a value.",
  "status": "proved"
 },
 "C14": {
  "note": "Iff on the number of nodes; bounded_errors says which errors remain.",
  "status": "proved"
 },
 "C15": {
  "note": "Recording wrapper around any delegate; for truthful delegates the log is a function of the input alone.",
  "status": "proved"
 },
 "C16": {
  "note": "Also for arbitrary delegates and for every reachable tokenizer state.",
  "status": "proved"
 },
 "C17": {
  "note": "Offsets grow with every token or error and never fall; iteration ends after at most as many calls as bytes remain.",
  "status": "proved"
 },
 "C18": {
  "note": "In every reachable tokenizer state.",
  "status": "proved"
 },
 "C19": {
  "note": "In every reachable tokenizer state.",
  "status": "proved"
 },
 "C20": {
  "note": "Soundness (tokens are numbers), maximality, and completeness (numbers become tokens).",
  "status": "proved"
 },
 "C21": {
  "note": "Soundness and completeness with Spec.v's string grammar.",
  "status": "proved"
 },
 "C23": {
  "note": "For every string a program can have; comparisons included.",
  "status": "proved"
 },
 "C25": {
  "note": "Iff, for every obtainable string and every UTF-8 text.",
  "status": "proved"
 },
 "C28": {
  "note": "Strictly less iff the decoded text comes first in code point order; total order laws follow.",
  "status": "proved"
 },
 "C31": {
  "note": "From<&str> and From<String>; the text read back by decoded() is the argument.",
  "status": "proved"
 },
 "C34": {
  "note": "Each accessor is characterised by the decoded text and the stored form.",
  "status": "proved"
 },
 "C35": {
  "note": "The written text parses back to the identical value (not only an equal one) under every configuration that admits it.",
  "status": "proved"
 },
 "C36": {
  "note": "minify (SpecWrite.v) is a byte-level scanner independent of the writer; with trailing commas the lexemes are compared.",
  "status": "proved"
 },
 "C37": {
  "note": "pretty_layout (SpecWrite.v) fixes every byte; round trip for whitespace indentation and line ends.",
  "status": "proved"
 },
 "C39": {
  "note": "replays: the writer sees the same calls in order, up to and including its first failure, whose error is returned.",
  "status": "proved"
 },
 "C40": {
  "note": "first_entry names the entry by its decoded key; writing back changes only it.",
  "status": "proved"
 },
 "C41": {
  "note": "One theorem for all four accessors, both outcomes.",
  "status": "proved"
 },
 "C42": {
  "note": "Iff with integer_literal (SpecNum.v) and the ranges of all twelve types.",
  "status": "proved"
 },
 "C46": {
  "note": "Acceptance iff ws string ws / ws number ws; C67 gives the offsets of the errors for other values.",
  "status": "proved"
 },
 "C47": {
  "note": "every_sequence is the general statement; the others are its readable instances.",
  "status": "proved"
 },
 "C48": {
  "note": "Any two spacings of the same lexemes give the same result from every entry point.",
  "status": "proved"
 },
 "C49": {
  "note": "Stated for every root that is not a number (a truncated number may be a number).",
  "status": "proved"
 },
 "C50": {
  "note": "Second half of each theorem: offset equals the length for the four kinds.",
  "status": "proved"
 },
 "C51": {
  "note": "About the grammar alone, by mutual induction; no bound on lengths.",
  "status": "proved"
 },
 "C52": {
  "note": "Values and documents of any capacity: each string or number source is Borrowed and a part of the input.",
  "status": "proved"
 },
 "C53": {
  "note": "text_before is the order of str (byte by byte).",
  "status": "proved"
 },
 "C54": {
  "note": "related (View.v) is the structural relation; transitivity needs string equality to be transitive, which parsed strings satisfy.",
  "status": "proved"
 },
 "C55": {
  "note": "Lexical errors are those of the tokenizer run; bounded documents and the scalar parsers add only their own kinds.",
  "status": "proved"
 },
 "C56": {
  "note": "text_error (SpecError.v) describes, independently of the parser, which error a text has; soundness, completeness, uniqueness.",
  "status": "proved"
 },
 "C57": {
  "note": "Utf8 and ExpectedColon errors at a cut inside a character are the stated exceptions.",
  "status": "proved"
 },
 "C58": {
  "note": "The part before the error (or before the ill-formed token) is a beginning of some JSON text.",
  "status": "proved"
 },
 "C59": {
  "note": "nesting counts open brackets outside strings up to the error.",
  "status": "proved"
 },
 "C96": {
  "status": "proved",
  "note": "Derived comparisons modelled in EqModel.v; string equality from C26."
 },
 "C97": {
  "status": "proved",
  "note": "Derived Debug modelled in DebugModel.v on std's builders (text, not single calls); std's Unicode tables and the text of PhantomData are parameters."
 },
 "C98": {
  "status": "proved",
  "note": "From C84 (the tokens of the text are the tokens of the value) and C36 (the lexemes)."
 },
 "C99": {
  "status": "proved",
  "note": "By the invariant that everything held is `obtainable`/`constructible`/`document_for`/`reachable`, and, for the converse, a history that makes each of these. The panics are stated twice: as a bound in round figures, and exactly (`C99_panics_exactly`: iff; `C99_every_listed_panic_happens`: none of the listed kinds is idle). Calls are those of the model; the standard library's own panics (allocation failure) are outside it."
 },
 "C100": {
  "status": "proved",
  "note": "A Hoare logic over the parser with the invariant that the log so far is the tokens read so far, or all but the last."
 },
 "C101": {
  "status": "proved",
  "note": "The run under the configuration and the run under its tolerant version agree until an answer of the delegate stops it (tf_parse); under the tolerant version every delegate runs along with Value's (C91), whose result C01 and C56 describe."
 }
}