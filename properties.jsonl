{"id": "C01", "title": "Accepts exactly JSON", "statement": "`Value::from_json_bytes(s)` (and `from_json`) returns Ok exactly when s is a JSON text in the sense of RFC 8259 (optional whitespace, one value, optional whitespace; UTF-8 strings; every \\u escape denotes a Unicode scalar value, surrogates only as a high/low pair) whose arrays and objects nest at most 128 deep.", "quantifier": "every byte sequence of any length", "why_tests_cant": "the input space is infinite; tests sample a few hundred documents", "anchors": ["src/parser.rs: Parser::parse_bytes, read_tokens, read_object, read_array", "src/value.rs: Value::from_json_bytes, Value::from_json"]}
{"id": "C02", "title": "The parsed value is the tree the text denotes", "statement": "When parsing succeeds the returned Value has exactly the structure written in the text: array elements and object entries in source order, duplicate keys kept, and each string and number carrying its source text verbatim.", "quantifier": "every accepted byte sequence", "why_tests_cant": "the input space is infinite; tests sample a few hundred documents", "anchors": ["src/value.rs: ValueParser, Value, Object, Entry", "src/parser.rs: read_object, read_array"]}
{"id": "C03", "title": "str and bytes entry points agree", "statement": "For input that is valid UTF-8, `from_json(s)` and `from_json_bytes(s.as_bytes())` return the same result: same value, or same error kind and offset; likewise for Document, the validators and the Tokenizer (token by token, also after errors).", "quantifier": "every valid UTF-8 string, every config", "why_tests_cant": "a divergence needs a specific mix of multi-byte text, escapes and truncation", "anchors": ["src/parser.rs: Tokenizer::for_json, for_json_bytes, read_string_from_source", "src/string.rs: SAFE_STRING_BYTES, SAFE_STRING_BYTES_VERIFY_UTF8"]}
{"id": "C04", "title": "Only valid UTF-8 is ever exposed as str", "statement": "Every string and number handed out by the parser or tokenizer is valid UTF-8 (numbers: ASCII), and `from_json_bytes` accepts only inputs that are valid UTF-8 as a whole; the unchecked conversions are never applied to invalid data.", "quantifier": "every byte sequence (for_json_bytes) and every valid str (for_json), every number of tokenizer calls, also after errors", "why_tests_cant": "undefined behaviour has no assertable symptom and needs adversarial bytes", "anchors": ["src/parser.rs: read_string_from_source, read_number_from_source (from_utf8_unchecked)", "src/string.rs: Decoded::next (from_u32_unchecked)"]}
{"id": "C05", "title": "Parsing never panics and always terminates", "statement": "Parsing any bytes with any config into a Value, a Document or with the validators returns Ok or Err; it never panics, indexes out of bounds, hits unreachable!, overflows or loops forever.", "quantifier": "every byte sequence, every ParseConfig", "why_tests_cant": "absence of panics over all inputs", "anchors": ["src/parser.rs: whole parser", "src/doc.rs: Nodes", "src/value.rs: ValueParser"]}
{"id": "C06", "title": "Trailing commas exactly as configured", "statement": "With `allowing_trailing_commas()` the accepted texts are exactly the JSON texts in which each non-empty array or object may have one extra comma before its closing bracket, and the value is the same as without that comma; without it such texts are rejected.", "quantifier": "every byte sequence, both settings", "why_tests_cant": "the input space is infinite; tests sample a few hundred documents", "anchors": ["src/parser.rs: ParseConfig::allowing_trailing_commas, read_object, read_array"]}
{"id": "C07", "title": "Recursion limit is exact", "statement": "With `with_recursion_limit(n)` a text is accepted iff it is acceptable with no limit and its arrays/objects nest at most n deep; `without_recursion_limit()` accepts every depth; sibling containers do not use up the limit.", "quantifier": "every byte sequence, every limit n", "why_tests_cant": "tests check a few depths; sibling/ancestor bookkeeping must hold for every tree shape", "anchors": ["src/parser.rs: ParseState::begin_nest, end_nest, ParseConfig::recursion_limit"]}
{"id": "C08", "title": "Root type restriction", "statement": "With `allowing_all_types_at_root(false)` (and `strict()`) a text is accepted iff it is acceptable otherwise and its root is an object or array; a syntactically valid scalar root is rejected with PayloadsShouldBeObjectOrArray.", "quantifier": "every byte sequence, every config", "why_tests_cant": "the input space is infinite; tests sample a few hundred documents", "anchors": ["src/parser.rs: Parser::parse_bytes, ParseConfig::strict"]}
{"id": "C09", "title": "All entry points agree", "statement": "`Parser::validate_json*`, `Value::from_json*` and `Document::from_json*` accept the same inputs and otherwise return the same error kind at the same offset.", "quantifier": "every byte sequence, every config", "why_tests_cant": "differential equality over all inputs", "anchors": ["src/parser.rs: impl ParseDelegate for ()", "src/value.rs: ValueParser", "src/doc.rs: impl ParseDelegate for &mut Nodes"]}
{"id": "C10", "title": "The validator reports the kind of the value", "statement": "`validate_json(s)` returns the JsonKind of the value `Value::from_json(s)` returns.", "quantifier": "every accepted input, every config", "why_tests_cant": "the input space is infinite; tests sample a few hundred documents", "anchors": ["src/parser.rs: validate_json, JsonKind"]}
{"id": "C11", "title": "Document to Value conversion is lossless", "statement": "`Value::from(Document::from_json(s)?)` equals `Value::from_json(s)?` and never panics.", "quantifier": "every accepted input, every config", "why_tests_cant": "nesting shapes are unbounded", "anchors": ["src/doc.rs: hydrate_value_from_node, From<GenericDocument> for Value"]}
{"id": "C12", "title": "Document nodes are the preorder of the tree with exact lengths", "statement": "The node list of a parsed Document is the preorder listing of the parsed value: each Object/Array node is followed by exactly `length` key/value pairs / values, keys are String nodes, and nothing follows the root value.", "quantifier": "every accepted input", "why_tests_cant": "the input space is infinite; tests sample a few hundred documents", "anchors": ["src/doc.rs: Nodes::push_node, extend_object, extend_array, Node"]}
{"id": "C13", "title": "Skipping and reading a value from a DocumentIter agree", "statement": "At every value position in a document, `skip_next_value()` advances past exactly the nodes that `next_value()` would consume, i.e. exactly one complete value including nested ones; at the end of the document both leave the iterator at the end.", "quantifier": "every document, every position", "why_tests_cant": "the input space is infinite; tests sample a few hundred documents", "anchors": ["src/doc.rs: DocumentIter::skip_next_value, next_value"]}
{"id": "C14", "title": "Bounded documents: exact capacity", "statement": "A HeaplessDocument of capacity N parses s iff Document parses s and needs at most N nodes, and then holds the same nodes; a document that would need more returns PaylodTooLarge (or an error the unbounded parse also returns) and never panics.", "quantifier": "every byte sequence, every capacity N", "why_tests_cant": "the input space is infinite; tests sample a few hundred documents", "anchors": ["src/doc.rs: NodeCollection for heapless::Vec, Nodes::push_node"]}
{"id": "C15", "title": "Delegate callbacks depend only on the input", "statement": "For a delegate that answers `*_is_empty` and `kind_of` truthfully, the sequence of callbacks the parser makes is a function of the input and config only, is properly bracketed, and for accepted input is the preorder event stream of the value; the parser makes no callback after one that returned an error and returns that error as ErrorFromDelegate.", "quantifier": "every delegate, every input, every config", "why_tests_cant": "quantifies over arbitrary user code implementing the trait", "anchors": ["src/parser.rs: ParseDelegate, read_tokens, read_object, read_array"]}
{"id": "C16", "title": "Error offsets stay inside the input", "statement": "Every parse or tokenizer error carries an offset between 0 and the input length inclusive.", "quantifier": "every rejected input, every config, every entry point", "why_tests_cant": "the input space is infinite; tests sample a few hundred documents", "anchors": ["src/error.rs: Error::offset", "src/parser.rs"]}
{"id": "C17", "title": "Tokenizer progress and termination", "statement": "Every `next()` that returns Some advances `offset()` by at least one byte, no call moves it back, it never exceeds the input length, so iteration ends after at most len calls even if errors are ignored; once None is returned it stays None.", "quantifier": "every byte sequence, every sequence of calls", "why_tests_cant": "unbounded call sequences", "anchors": ["src/parser.rs: impl Iterator for Tokenizer, ByteIterator"]}
{"id": "C18", "title": "peek predicts and never loses a token", "statement": "`peek()` returns None iff `next()` would return None; calling peek any number of times does not change the tokens that follow; if the following `next()` yields Ok(token), the token has exactly the kind peek announced; if peek announced Unrecognized, next() is an Unexpected error.", "quantifier": "every byte sequence, every interleaving of peek and next", "why_tests_cant": "interleavings of calls are unbounded", "anchors": ["src/parser.rs: Tokenizer::peek, PeekableTokenKind"]}
{"id": "C19", "title": "next_or_eof agrees with next", "statement": "`next_or_eof()` returns exactly what `next()` returns and leaves the tokenizer in the same state, except that where next returns None it returns UnexpectedEof at the end of the input.", "quantifier": "every tokenizer state", "why_tests_cant": "the input space is infinite; tests sample a few hundred documents", "anchors": ["src/parser.rs: Tokenizer::next_or_eof"]}
{"id": "C20", "title": "Number tokens are RFC 8259 numbers, longest match", "statement": "Every number token's text is a number of the RFC 8259 grammar (no leading zeros, no bare dot, no leading plus) and is the longest number at that position; conversely every RFC number followed by a delimiter is tokenized as itself.", "quantifier": "every byte sequence", "why_tests_cant": "the input space is infinite; tests sample a few hundred documents", "anchors": ["src/parser.rs: read_number_from_source", "src/number.rs: JsonNumber::from_json"]}
{"id": "C21", "title": "String tokens are RFC 8259 strings", "statement": "A string token is produced exactly for `\"` body `\"` where body is RFC 8259 string content in valid UTF-8 with no raw control characters and only legal escapes; the token's source is the body verbatim.", "quantifier": "every byte sequence", "why_tests_cant": "the input space is infinite; tests sample a few hundred documents", "anchors": ["src/parser.rs: read_string_from_source, read_string_escape"]}
{"id": "C22", "title": "Decoded text is what RFC 8259 says", "statement": "`JsonString::decoded()` of a parsed string yields exactly the characters the JSON string denotes (\\b is U+0008, a surrogate pair denotes 0x10000+(hi-0xD800)*0x400+(lo-0xDC00), ...).", "quantifier": "every string the parser accepts", "why_tests_cant": "1,048,576 surrogate pairs and arbitrary mixtures", "anchors": ["src/string.rs: Decoded::next, merge_surrogate_pair"]}
{"id": "C23", "title": "Decoding parsed strings never panics and yields only scalar values", "statement": "`decoded()`, Display, comparison and hashing of any string obtained from the parser or from `JsonString::from` never panic and only produce valid chars.", "quantifier": "every JsonString obtainable from the API", "why_tests_cant": "unsafe from_u32_unchecked and three expect() calls rely on it", "anchors": ["src/string.rs: Decoded::next"]}
{"id": "C24", "title": "decoded_len is the UTF-8 length of the decoded text", "statement": "`decoded_len()` equals the number of bytes of `decoded().collect::<String>()`.", "quantifier": "every JsonString obtainable from the API", "why_tests_cant": "the input space is infinite; tests sample a few hundred documents", "anchors": ["src/string.rs: JsonString::decoded_len, JsonStringInfo::add_bytes, AsJson::next"]}
{"id": "C25", "title": "Equality with str is equality of decoded text", "statement": "`json_string == s` iff the decoded text of json_string is s.", "quantifier": "every JsonString obtainable from the API, every str s", "why_tests_cant": "two representations times all escapings", "anchors": ["src/string.rs: impl PartialEq<str> for JsonString"]}
{"id": "C26", "title": "Equality of JsonStrings is equality of decoded text", "statement": "`a == b` iff a and b decode to the same text, whatever escapes either uses and whichever representation (JSON or raw) either has.", "quantifier": "every pair of JsonStrings obtainable from the API", "why_tests_cant": "pairs of representations times all escapings", "anchors": ["src/string.rs: impl PartialEq<JsonString> for JsonString"]}
{"id": "C27", "title": "JsonString equality is an equivalence relation", "statement": "`==` on JsonString is reflexive, symmetric and transitive (the type claims Eq).", "quantifier": "every triple of JsonStrings", "why_tests_cant": "triples over two representations", "anchors": ["src/string.rs: derive(Eq) JsonString"]}
{"id": "C28", "title": "Ordering is the order of the decoded text", "statement": "`cmp`/`partial_cmp` on JsonStrings and against str is the lexicographic order of the decoded text, hence a total order independent of escapes and representation; code-point order and UTF-8 byte order coincide.", "quantifier": "every pair / triple of JsonStrings, every str", "why_tests_cant": "the input space is infinite; tests sample a few hundred documents", "anchors": ["src/string.rs: Ord, PartialOrd for JsonString"]}
{"id": "C29", "title": "Ordering is consistent with equality", "statement": "`a.cmp(&b) == Equal` iff `a == b` (required of Ord), also against str.", "quantifier": "every pair of JsonStrings", "why_tests_cant": "the input space is infinite; tests sample a few hundred documents", "anchors": ["src/string.rs: Ord, PartialEq"]}
{"id": "C30", "title": "Equal strings hash equally", "statement": "If two JsonStrings decode to the same text then hashing them feeds the hasher the same data, the same as hashing that text as a str; so a == b implies equal hashes.", "quantifier": "every pair of JsonStrings, every Hasher", "why_tests_cant": "quantifies over hashers and pairs of escapings", "anchors": ["src/string.rs: impl Hash for JsonString"]}
{"id": "C31", "title": "From<&str> keeps the text", "statement": "`JsonString::from(s)` (and from String) decodes to s, displays as s, and compares equal to s, for any s.", "quantifier": "every str s", "why_tests_cant": "the input space is infinite; tests sample a few hundred documents", "anchors": ["src/string.rs: From<&str>, From<String> for JsonString"]}
{"id": "C32", "title": "Escaping produces a JSON string denoting the text", "statement": "For any s, `JsonString::from(s).as_json()` / `escape_if_needed()` is valid JSON string content that the parser accepts and that denotes s.", "quantifier": "every str s", "why_tests_cant": "all control characters and mixtures", "anchors": ["src/string.rs: AsJson::next, escape_if_needed"]}
{"id": "C33", "title": "len is the length of the JSON encoding", "statement": "`len()` equals the number of bytes `as_json()` produces, and `is_empty()` is true iff the text is empty.", "quantifier": "every JsonString obtainable from the API", "why_tests_cant": "the input space is infinite; tests sample a few hundred documents", "anchors": ["src/string.rs: JsonString::len, is_empty, JsonStringInfo"]}
{"id": "C34", "title": "as_str, decode_if_needed, escape_if_needed and as_json_str are consistent", "statement": "`as_str()` is Some(t) only with t the decoded text and is None exactly for JSON-form strings with escapes; `decode_if_needed()` is the decoded text, borrowing when there is nothing to decode; `as_json_str()`/`escape_if_needed()` return the text `as_json()` produces.", "quantifier": "every JsonString obtainable from the API", "why_tests_cant": "the input space is infinite; tests sample a few hundred documents", "anchors": ["src/string.rs: as_str, decode_if_needed, escape_if_needed, as_json_str"]}
{"id": "C35", "title": "Compact serialization round-trips parsed values", "statement": "For any value v obtained by parsing, `Value::from_json(&v.to_json())` is Ok and equal to v, under the same config.", "quantifier": "every accepted input, every config", "why_tests_cant": "the input space is infinite; tests sample a few hundred documents", "anchors": ["src/value.rs: to_json, write_json_value, WriteState"]}
{"id": "C36", "title": "Compact serialization removes exactly the insignificant whitespace", "statement": "`to_json()` of a parsed value is the source text with all whitespace outside strings (and trailing commas, if allowed) removed, nothing else changed.", "quantifier": "every accepted input", "why_tests_cant": "the input space is infinite; tests sample a few hundred documents", "anchors": ["src/value.rs: to_json, WriteState"]}
{"id": "C37", "title": "Pretty serialization is JSON and round-trips", "statement": "For any indentation and line ending made of JSON whitespace, `to_json_pretty_custom` of a parsed value re-parses to the same value; `to_json_pretty()` is the instance with two spaces and newline.", "quantifier": "every accepted input, every whitespace indentation and line ending", "why_tests_cant": "the input space is infinite; tests sample a few hundred documents", "anchors": ["src/value.rs: to_json_pretty, to_json_pretty_custom, WriteState"]}
{"id": "C38", "title": "Serialization of built values round-trips", "statement": "For any Value built with the public constructors (strings from any &str, numbers from JsonNumber::from_json, nested arrays/objects), `Value::from_json(&v.to_json())` is Ok and equal to v.", "quantifier": "every value constructible from the API", "why_tests_cant": "all strings inside all tree shapes", "anchors": ["src/value.rs: to_json", "src/string.rs: AsJson::next, From<&str>"]}
{"id": "C39", "title": "Writers receive a prefix, errors are propagated", "statement": "`write_json_to(w)` / `pretty_write_json_to(w)` returns Ok iff every write succeeded, then having written exactly the `to_json()` text; after a failing write nothing further is written, so w always holds a prefix of the full text.", "quantifier": "every value, every fmt::Write implementation", "why_tests_cant": "quantifies over arbitrary writers and failure points", "anchors": ["src/value.rs: write_json_to, pretty_write_json_to_custom, WriteState::write"]}
{"id": "C40", "title": "Object lookup finds the first matching key", "statement": "`Object::get(k)`, `get_mut`, `get_entry_mut` and `Value::get`/Index refer to the first entry whose decoded key is k, None/panic iff there is none or the value is not an object; writing through get_mut/IndexMut changes only that entry.", "quantifier": "every object (duplicates, escaped keys), every key", "why_tests_cant": "the input space is infinite; tests sample a few hundred documents", "anchors": ["src/value.rs: Object::get, get_mut, get_entry_mut, Value::get, Index<&str>"]}
{"id": "C41", "title": "Array indexing", "statement": "`get_index(i)`, `get_index_mut(i)` and Index<usize> refer to the i-th element iff the value is an array with more than i elements; writing through them changes only that element.", "quantifier": "every value, every index", "why_tests_cant": "the input space is infinite; tests sample a few hundred documents", "anchors": ["src/value.rs: get_index, get_index_mut, Index<usize>"]}
{"id": "C42", "title": "Integer conversions are exact or None", "statement": "`as_u8..as_u128/usize` and `as_i8..as_i128/isize` return Some(n) iff the literal is an integer literal (no fraction, no exponent; unsigned: no minus sign) whose mathematical value n fits the type; otherwise None.", "quantifier": "every number literal, every integer type", "why_tests_cant": "literals of any length around every type bound", "anchors": ["src/number.rs: impl_as_number", "src/value.rs: impl_as_number"]}
{"id": "C43", "title": "Float conversions accept every JSON number", "statement": "`as_f64()`/`as_f32()` return Some for every JsonNumber obtainable from the API.", "quantifier": "every number literal", "why_tests_cant": "the input space is infinite; tests sample a few hundred documents", "anchors": ["src/number.rs: as_f64, as_f32"]}
{"id": "C44", "title": "Iterator size hints are valid bounds", "statement": "`as_json().size_hint()` brackets the number of characters the iterator still yields, in every state of the iterator.", "quantifier": "every JsonString, every iteration state", "why_tests_cant": "the input space is infinite; tests sample a few hundred documents", "anchors": ["src/string.rs: AsJson::size_hint"]}
{"id": "C45", "title": "Building strings from text does not panic", "statement": "`JsonString::from(s)` never panics for texts whose escaped length fits the length field (bit width minus one of usize), on 32- and 64-bit targets; parsing never panics for any slice Rust can represent.", "quantifier": "every str, both pointer widths", "why_tests_cant": "needs multi-gigabyte inputs to observe", "anchors": ["src/string.rs: JsonStringInfo::add_bytes, add_bytes_from_escape, HAS_ESCAPES_MASK"]}
{"id": "C46", "title": "JsonString::from_json and JsonNumber::from_json accept exactly one string / number", "statement": "`JsonString::from_json(s)` is Ok iff s is one JSON string surrounded by optional whitespace; a well-formed other value gives ExpectedString (resp. ExpectedNumber); they never panic.", "quantifier": "every str", "why_tests_cant": "the input space is infinite; tests sample a few hundred documents", "anchors": ["src/string.rs: JsonString::from_json, StringParser", "src/number.rs: JsonNumber::from_json, NumberParser"]}
{"id": "C47", "title": "Config builders set exactly one field", "statement": "Each ParseConfig builder changes exactly the field it names, so builder calls on different fields commute and the last call on a field wins; new()/default()/strict() have the documented values.", "quantifier": "every config, every builder sequence", "why_tests_cant": "finite but the algebra is what users rely on", "anchors": ["src/parser.rs: ParseConfig"]}
{"id": "C48", "title": "Whitespace between tokens is insignificant", "statement": "Inserting or removing JSON whitespace between tokens changes neither acceptance nor the resulting value.", "quantifier": "every text, every placement of whitespace", "why_tests_cant": "the input space is infinite; tests sample a few hundred documents", "anchors": ["src/parser.rs: ByteIterator::skip_ws"]}
{"id": "C49", "title": "Truncated containers are rejected", "statement": "No proper prefix of an accepted text whose root is an array or object is accepted unless only whitespace was cut off.", "quantifier": "every accepted text, every cut point", "why_tests_cant": "the input space is infinite; tests sample a few hundred documents", "anchors": ["src/parser.rs: read_object, read_array"]}
{"id": "C50", "title": "End-of-input errors point at the end", "statement": "An error of kind UnexpectedEof, UnclosedObject, UnclosedArray or UnclosedString always has offset equal to the input length.", "quantifier": "every rejected input, every config", "why_tests_cant": "the input space is infinite; tests sample a few hundred documents", "anchors": ["src/parser.rs", "src/error.rs: ErrorKind"]}
{"id": "C51", "title": "JSON texts are unambiguous", "statement": "Each byte sequence denotes at most one value.", "quantifier": "every byte sequence", "why_tests_cant": "the input space is infinite; tests sample a few hundred documents", "anchors": ["src/parser.rs: read_tokens"]}
{"id": "C52", "title": "Parsed strings and numbers borrow from the input", "statement": "Every string/number source in a parsed Value or Document is a contiguous slice of the input (never an owned copy).", "quantifier": "every accepted input", "why_tests_cant": "the input space is infinite; tests sample a few hundred documents", "anchors": ["src/anystr.rs: AnyStr", "src/parser.rs: read_string_from_source, read_number_from_source"]}
{"id": "C53", "title": "Ownership is invisible in AnyStr", "statement": "Equality, ordering and hashing of AnyStr depend only on the text, not on Owned/Borrowed, and agree with str.", "quantifier": "every pair of AnyStr", "why_tests_cant": "the input space is infinite; tests sample a few hundred documents", "anchors": ["src/anystr.rs: AnyStr"]}
{"id": "C54", "title": "Value equality is structural", "statement": "`Value == Value` holds iff the trees have the same shape, equal booleans, textually equal numbers and equal strings/keys in the same order; it is reflexive and symmetric, and transitive whenever string equality is.", "quantifier": "every pair of values", "why_tests_cant": "the input space is infinite; tests sample a few hundred documents", "anchors": ["src/value.rs: derive(PartialEq) Value, Object, Entry"]}
{"id": "C55", "title": "Error conversion keeps kind and offset", "statement": "Errors raised by the tokenizer surface from every entry point with the same kind and offset; errors raised by the built-in delegates surface as their own kind (not wrapped).", "quantifier": "every error kind, every entry point", "why_tests_cant": "the input space is infinite; tests sample a few hundred documents", "anchors": ["src/error.rs: into_fallable, into_infallable"]}
{"id": "C56", "title": "The reported error is determined exactly by the text", "statement": "For every input and config, a failing parse (Value, Document, validator) returns the kind and offset that an independent description of ill-formed texts assigns to the input: e.g. a missing comma is ExpectedCommaOrEndOfArray at the end of the previous element, a bad escape is InvalidEscape at the escape letter, a truncated array is UnclosedArray at the end. Every input is either accepted or described as wrong in exactly one way.", "quantifier": "all byte strings, all configs", "why_tests_cant": "the input space and the nesting of contexts are unbounded; tests check a few literals per kind", "anchors": ["src/parser.rs: Tokenizer, read_from_source, read_tokens, read_object, read_array, parse_bytes", "src/error.rs: Error, ErrorKind"]}
{"id": "C57", "title": "An error inside the input is final", "statement": "If parsing s fails with an offset smaller than s.len() (and, for Utf8 errors, s is valid UTF-8), then no continuation of s parses; unless the continuation prolongs a number, the error (kind and offset) is the very same. Hence a truncated acceptable input is accepted or fails at its end.", "quantifier": "all inputs, all continuations, all configs", "why_tests_cant": "quantifies over every continuation of every input", "anchors": ["src/parser.rs: Tokenizer, read_tokens, read_object, read_array"]}
{"id": "C58", "title": "The first error is the one reported", "statement": "When parsing fails, the input before the reported offset (or before the ill-formed token that contains the offset) is the beginning of some JSON text: the parser never reads past an error and never reports a later one.", "quantifier": "all inputs, all configs", "why_tests_cant": "existence of a completion for every prefix of every rejected input", "anchors": ["src/parser.rs: read_tokens, read_object, read_array"]}
{"id": "C59", "title": "The recursion limit only adds its own error, at the bracket that is too deep", "statement": "Parsing with a recursion limit gives the same result as without one (or with a higher one), or RecursionLimitReached; that error's offset is at (the whitespace before) a bracket inside exactly `limit` open containers. Without a limit it never occurs.", "quantifier": "all inputs, all limits", "why_tests_cant": "all nesting depths and all ways of nesting", "anchors": ["src/parser.rs: begin_nest, end_nest, ParseConfig"]}
{"id": "C60", "title": "Error texts tell errors apart", "statement": "Displaying an error gives `error at <offset in decimal>: <text>`, one line of printable text, the same pieces into every writer, stopping at the writer's first error; two errors have the same text only if they have the same offset and kind, and a text about a character shows that character.", "quantifier": "all errors (every kind, offset, byte and delegate error), all writers", "why_tests_cant": "infinitely many offsets and error values, and a pairwise claim over all of them", "anchors": ["src/error.rs: Display for Error, Display for ErrorKind"]}
{"id": "C61", "title": "JsonStringInfo keeps both its parts", "statement": "JsonStringInfo::new(b, n) reports has_escapes() = b and unescaped_length() = n for every length a Rust string can have; for longer n it is exactly characterised; two infos are equal exactly if both parts are.", "quantifier": "all booleans, all usize lengths, 32- and 64-bit", "why_tests_cant": "2^64 lengths packed with a flag in one word", "anchors": ["src/string.rs: JsonStringInfo::new, has_escapes, unescaped_length"]}
{"id": "C62", "title": "The accessors of Value agree with each other and with the text", "statement": "Exactly one of as_object, as_array, as_string, as_number, as_bool, is_null answers for a value; for a parsed value which one is told by the first byte of the text; scalars show exactly their source text; as_str gives the text of a string without escapes and nothing else; the mutable accessors reach the same parts and store what is written.", "quantifier": "all values; all parsed inputs and configs", "why_tests_cant": "every input text", "anchors": ["src/value.rs: Value::as_object, as_array, as_string, as_number, as_bool, as_str, is_null, as_object_mut, as_array_mut"]}
{"id": "C63", "title": "From conversions", "statement": "Value::from of a bool, object, vector or JSON string is read back by the matching accessor; Value::from of text is a string with exactly that text, for &str and String alike, and panics exactly when JsonString::from does; Object::from_iter keeps all entries in order and get finds the first with a key.", "quantifier": "all values, all UTF-8 texts, all lists of entries, all keys", "why_tests_cant": "every text and every list of entries", "anchors": ["src/value.rs: From impls, FromIterator for Object, Entry::new"]}
{"id": "C69", "title": "Editing an object changes only what was edited", "statement": "push adds an entry that get finds exactly if no earlier entry has its key; insert at the front hides later entries with that key; insert then remove restores the object; removing the found entry uncovers the next one with that key; retain by key removes exactly the entries with that key. Other keys are unaffected.", "quantifier": "all objects with keys parsed or built, all keys, all positions", "why_tests_cant": "every object and every key, with duplicate and differently-escaped keys", "anchors": ["src/value.rs: Object, Deref, DerefMut, get"]}
{"id": "C64", "title": "Serialization is built from the parts", "statement": "The text of an array or object is exactly the texts of its elements or members (the key written like a string value), separated by commas, in brackets; with pretty printing each part's own pretty text on lines of its own, every line indented one step further. Serialization panics only if a part's does. Compact text is one line without control characters; pretty text has none but those of the indentation and line ending.", "quantifier": "all values a program can build; all indentations without newline, all line endings that end in their only newline", "why_tests_cant": "all shapes and sizes of values, all contents of strings", "anchors": ["src/value.rs: Value::to_json, to_json_pretty_custom, write_json, WriteState"]}
{"id": "C65", "title": "Walking a document", "statement": "next yields the nodes of the document in order, containers before their parts with their number of parts, then None forever; no sequence of next, next_value and skip_next_value panics, each call makes progress until the end; reading an object or array by hand, skipping any selection of parts, gives exactly the selected keys and values.", "quantifier": "all documents parsed from any input, all sequences of calls, all selections", "why_tests_cant": "all interleavings of three operations on all documents", "anchors": ["src/doc.rs: DocumentIter::next, next_value, skip_next_value, GenericDocument::iter"]}
{"id": "C68", "title": "Sizes", "statement": "A document has at most (source length + 1)/2 nodes (tight for every size), so a bounded document with that capacity rejects nothing for size; nesting is at most half the source's length; compact text is never longer than the source it was parsed from.", "quantifier": "all inputs, all configs, all capacities", "why_tests_cant": "a bound over all inputs", "anchors": ["src/doc.rs: Nodes, NodeCollection", "src/value.rs: to_json"]}
{"id": "C70", "title": "Parsing is built from the parts", "statement": "A text parses to an array or object exactly if it is a bracketed, comma-separated list of texts that each parse on their own (with one level less of the recursion limit) to the elements or members; so texts can be spliced into arrays and objects and mean the same.", "quantifier": "all inputs, all configs with any limit or none, all lists of parts", "why_tests_cant": "all ways of splicing all texts", "anchors": ["src/parser.rs: read_array, read_object", "src/value.rs: from_json"]}
{"id": "C66", "title": "Where delegate errors are reported", "statement": "When a callback of a user-supplied ParseDelegate returns an error, parsing stops and the error carries a byte offset that is a function of the input and of the number of callbacks made: before the whitespace in front of a scalar or key (after that whitespace for array elements), right after the opening bracket for a container's start, right after the colon for an object member, right after the value for an array element, after the closing bracket for the end of an object, and (surprisingly) after the OPENING bracket for the end of an array. The callbacks made before it are exactly those the text read so far describes.", "quantifier": "all inputs (bytes or str), all configurations, all delegates (truthful or not), all points at which a callback fails", "why_tests_cant": "a test fixes one delegate, one failing callback and one input", "anchors": ["src/parser.rs: read_tokens, read_object, read_array, parse_bytes, ParseDelegate", "src/error.rs: ErrorKind::ErrorFromDelegate"]}
{"id": "C67", "title": "Offsets of PaylodTooLarge, ExpectedString and ExpectedNumber", "statement": "A bounded Document that overflows reports PaylodTooLarge at the offset (in the sense of C66) of the first callback that would add a node beyond the capacity. JsonString::from_json/JsonNumber::from_json report ExpectedString/ExpectedNumber at offset 0 when the input starts with another scalar and right after the opening bracket when it starts with a container. These three kinds never arise in any other way.", "quantifier": "all inputs, all configurations, all capacities", "why_tests_cant": "a test fixes one input and one capacity", "anchors": ["src/doc.rs: push_node, ParseDelegate for &mut Nodes, NodeCollection", "src/string.rs: from_json, StringParser", "src/number.rs: from_json, NumberParser"]}
{"id": "C71", "title": "Recursion depth is bounded by the limit", "statement": "Parsing never has more than recursion_limit + 1 nested calls of the recursive-descent function on the stack, for any delegate and any input (and, without a limit, never more than the input's length + 1); unfinished nested arrays reach that bound. Converting a parsed document to a Value, reading one with next_value and skipping one nests no deeper than limit + 1 (without a limit: less than half the input's length + 1). Serializing a parsed Value nests no deeper than that either, and at every depth some value needs all of those calls.", "quantifier": "all inputs (bytes or str), all delegates, all configurations and limits, all documents", "why_tests_cant": "stack use must be bounded for every adversarial input; a test exhibits one nesting depth", "anchors": ["src/parser.rs: Parser::read_tokens, ParseState::begin_nest/end_nest", "src/doc.rs: hydrate_value_from_node, DocumentIter::skip_next_value", "src/value.rs: Value::write_json_value, write_json_object, write_json_array"]}
{"id": "C72", "title": "Callback protocol for every delegate", "statement": "Whatever a ParseDelegate does (including answering is_empty/kind_of wrongly, failing or panicking), the parser calls it only as the trait documents: a value begins only at the start, after a key or in an array; a key only in an open object, a value is handed over exactly once to the container it belongs to, with the handles the delegate returned last for it; at most recursion_limit containers are open at any time; nothing is called after a failure; on success everything begun was ended and the result is the value of the last callback.", "quantifier": "all delegates (arbitrary state, handles, answers, errors, panics), all inputs, all configurations", "why_tests_cant": "quantifies over arbitrary user code implementing the trait and over every input", "anchors": ["src/parser.rs: trait ParseDelegate, Parser::read_tokens, read_object, read_array"]}
{"id": "C73", "title": "Document equality", "statement": "`==` on two parsed documents (of any capacities) never panics and agrees with `==` on the Values they convert to: it holds exactly if the texts denote trees of the same shape with equal decoded strings and keys in the same order, and identical number texts.", "quantifier": "all pairs of accepted inputs, all configurations, bounded and unbounded documents", "why_tests_cant": "ranges over pairs of arbitrary inputs; flat node lists of different trees must never compare equal", "anchors": ["src/doc.rs: derive(PartialEq) on GenericDocument, Node, Nodes", "src/value.rs: derive(PartialEq) on Value"]}
{"id": "C74", "title": "The char iterators of JsonString are well behaved", "statement": "Calling `next` any number of times on `decoded()` returns the chars of the decoded text one by one and then None forever, never panicking; `as_json()` likewise (as long as twice the length of a raw string fits isize). Once an iterator has returned None it returns None forever, whatever state it was in.", "quantifier": "all strings a program can have, all numbers of calls; the last part for every iterator state", "why_tests_cant": "number of calls and strings unbounded; the iterators are not FusedIterator by type, only by behaviour", "anchors": ["src/string.rs: Decoded::next, AsJson::next, JsonString::decoded, JsonString::as_json"]}
{"id": "C75", "title": "How much decoding and escaping yield", "statement": "The decoded text of a string never has more bytes than what is stored, and fewer exactly if it is stored as JSON with an escape. The JSON encoding of a text has exactly 1/2/6 chars per char (utf-8 length otherwise) and is at least as long as the text and at most six times as long.", "quantifier": "all strings a program can have; all texts", "why_tests_cant": "sizes unbounded", "anchors": ["src/string.rs: Decoded::next, AsJson::next"]}
{"id": "C76", "title": "The serialized text identifies the value", "statement": "Two parsed values have the same compact text, or the same pretty text (any whitespace indent and line ending), exactly if they are the same value (same spelling of strings and numbers), and are then ==. With trailing commas off, two accepted texts give the same value exactly if they have the same lexemes (differ in whitespace only). Serializing what was read back from serialized text reproduces the text. Strings made from different texts have different encodings.", "quantifier": "all pairs of accepted inputs, all configurations, all indentations", "why_tests_cant": "injectivity over pairs of unbounded inputs", "anchors": ["src/value.rs: to_json, to_json_pretty, to_json_pretty_custom", "src/string.rs: AsJson::next"]}
{"id": "C77", "title": "Every tokenizer call is determined by the bytes ahead", "statement": "At every position a tokenizer can be in, also after errors, exactly one of three things is ahead: only whitespace, a complete token, or something wrong; and it determines what next() returns (None / that token / that error kind at that offset) and the offset() afterwards. After an error about a byte the tokenizer stands behind that byte, after one about something missing at the error offset, after InvalidUtf8 at a described place. peek() is a table lookup of the first non-whitespace byte. Two histories that lead to the same offset have the same future.", "quantifier": "all inputs (str or bytes), all call histories (next, next_or_eof, peek, in any order, also after errors), both pointer widths", "why_tests_cant": "all histories of calls on all inputs, in particular continuing after errors", "anchors": ["src/parser.rs: Tokenizer::next, next_or_eof, peek, offset, read_string_from_source, read_string_escape, read_number_from_source, read_literal_from_source"]}
{"id": "C78", "title": "The number of delegate callbacks is linear in the input", "statement": "However the delegate behaves and however the run ends (success, any error, a delegate error), a delegate receives at most three callbacks for every two bytes of input, and strictly fewer if the run succeeds.", "quantifier": "all delegates, configurations, inputs (str or bytes), both pointer widths", "why_tests_cant": "inputs and delegates unbounded; a resource bound over all runs, including failing ones", "anchors": ["src/parser.rs: Parser::parse_bytes, read_from_source, read_object, read_array, ParseDelegate"]}
{"id": "C79", "title": "A more permissive configuration only removes its own errors", "statement": "If one configuration forbids nothing that another allows (trailing commas, types at root, nesting depth), then every run under the stricter that did not end in IllegalTrailingComma, RecursionLimitReached or PayloadsShouldBeObjectOrArray has the same result, and leaves the delegate in the same state, under the more permissive one. So changing the configuration never changes a value, a document, a validation or any other error; two configurations that both accept give the same value. Each builder call gives a configuration that is more permissive (allowing_trailing_commas, without_recursion_limit, allowing_all_types_at_root(true), raising the limit) or stricter (allowing_all_types_at_root(false), lowering the limit) than the one before.", "quantifier": "all pairs of configurations, all delegates, all inputs (str or bytes), both pointer widths", "why_tests_cant": "relates two runs of the parser on unbounded inputs with unknown delegates", "anchors": ["src/parser.rs: ParseConfig, Parser::parse_bytes, read_object, read_array, begin_nest", "src/value.rs: from_json_with_config", "src/doc.rs: from_json_with_config", "src/parser.rs: validate_json_with_config"]}
{"id": "C80", "title": "What a delegate is told does not depend on what comes later", "statement": "The callbacks (and tokens) produced for an input that does not end in a digit are, in the same order and with the same arguments, the beginning of those produced for every longer input. If the shorter input was accepted, or stopped by an error of the delegate, the longer one adds no callback and leaves the delegate in the same state, and the delegate error is the same.", "quantifier": "all delegates, configurations, inputs and continuations (str or bytes), both pointer widths", "why_tests_cant": "relates the runs on an input and on all its continuations, with unknown delegates", "anchors": ["src/parser.rs: Parser::parse_bytes, read_from_source, read_object, read_array, Tokenizer::next, ParseDelegate"]}
{"id": "C81", "title": "32-bit and 64-bit targets observe the same", "statement": "For every input a 32-bit program can have, the 64-bit parser gives the same result: with every delegate the same callbacks, errors and offsets, and values and documents that differ only in how the escape flag and length of strings are packed. Every observation of such strings and values (decoding, lengths, ==, order, hash, lookup, display, serialization) is the same; strings that can be built or escaped on 32 bits are the same on 64 bits.", "quantifier": "all inputs, configurations and delegates; all strings and values of a 32-bit program", "why_tests_cant": "relates two compilation targets over all inputs; tests run on one of them", "anchors": ["src/string.rs: JsonStringInfo and all methods of JsonString", "src/parser.rs: Parser::parse_bytes", "src/value.rs: Value, Object::get, to_json", "src/doc.rs: Document::from_json_with_config"]}
{"id": "C82", "title": "Documents over any node collection", "statement": "For every NodeCollection whose successful pushes append and whose slices agree, parsing into a document over it stores the nodes of the value in preorder, with container lengths raised in place: the final collection is exactly the one obtained by storing the value in a new collection, or the error is that of the first push that fails, whenever the collection chooses to fail. Rejected text gives the value parser's error unless a push fails before. The document reads back as the value and nothing panics as long as pushes return. Vec and heapless::Vec are such collections.", "quantifier": "all inputs, configurations and user implementations of NodeCollection (any hidden state, any time and kind of push failure)", "why_tests_cant": "ranges over arbitrary user code behind a trait; tests use Vec and heapless::Vec", "anchors": ["src/doc.rs: NodeCollection, GenericDocument, Nodes, ParseDelegate for &mut Nodes, From<GenericDocument> for Value, DocumentIter"]}
{"id": "C83", "title": "as_f32 and as_f64 return the nearest float", "statement": "as_f64()/as_f32() of every JsonNumber are the IEEE binary64/binary32 number nearest to what the literal denotes, ties to even, infinite from the overflow bound on and with the literal's sign (also for zero). Hence the answer does not depend on how the number is spelled, larger magnitudes get larger floats, numbers a float can hold are returned exactly, and integers up to 2^53 agree with the integer conversions. (Literals of 65000 bytes or more whose exponent is 655360 or more excepted: std stops reading such exponents.)", "quantifier": "every number literal obtainable from the API", "why_tests_cant": "correct rounding is a statement about all decimal numbers, most of them near ties and limits that tests do not hit", "anchors": ["src/number.rs: JsonNumber::as_f32, as_f64, parse", "src/value.rs: Value::as_f32, Value::as_f64"]}
{"id": "C84", "title": "The Tokenizer and the parser read the same thing", "statement": "Value::from_json(_bytes)_with_config returns a value for a text exactly when iterating a Tokenizer over the text yields that value's token sequence - brackets, commas, colons and the same strings and numbers, with a comma before a closing bracket only if trailing commas are allowed - and then ends, and the value meets the configured depth and root restrictions. So the two public readers never disagree about what a text contains; every text made of lexemes separated by whitespace is tokenized into exactly those lexemes.", "quantifier": "every input text (str and bytes), every configuration, every value", "why_tests_cant": "agreement of two readers on all texts cannot be sampled: it needs both directions over every nesting, spacing and invalid text", "anchors": ["src/parser.rs: Tokenizer, Iterator for Tokenizer, Parser::parse_json", "src/value.rs: Value::from_json_with_config, Value::from_json_bytes_with_config"]}
{"id": "C85", "title": "Displaying strings and their iterators", "statement": "Displaying a JsonString, its decoded() iterator or its as_json() iterator - also after any number of calls of next, even in the middle of an escape - passes the remaining characters to the destination one write_char each, in order, stops at and reports the first failure, never panics on its own and leaves the iterator where it was. So to_string() of a JsonString is its decoded text, and format!(\"{}\", s.as_json()) its JSON form without quotes.", "quantifier": "every string obtainable from the API, every number of next calls before, every fmt::Write implementation with any failure pattern", "why_tests_cant": "destinations and failure points are arbitrary programs; iterator states between the characters of an escape are rarely exercised", "anchors": ["src/string.rs: Display for JsonString, Display for Decoded, Display for AsJson"]}
{"id": "C86", "title": "Editing a part deep inside a value", "statement": "Following any chain of keys and indices with get_mut/get_index_mut (or IndexMut) reaches the part that the chain of get/get_index reaches (or both find nothing); assigning through the reference replaces exactly that part: reading there gives the new value, reading along any other path gives what it gave before, assigning the old part changes nothing, and in the serialized text exactly the bytes of the part's own text are replaced.", "quantifier": "every value whose strings come from the API, every path of any length, every new value", "why_tests_cant": "paths and nestings are unbounded and duplicate or escaped keys make a wrong entry easy to hit", "anchors": ["src/value.rs: Value::get, get_mut, get_index, get_index_mut, Index, IndexMut, Object::get_entry_mut, Value::to_json"]}
{"id": "C87", "title": "Text is copied only if it must change", "statement": "AnyStr and JsonString converted from a &str keep borrowing it, converted from a String they own it. decode_if_needed and escape_if_needed return the very text the string holds, borrowed if it is borrowed, exactly when decoding (escaping) does not change it; only otherwise they return a new, owned text.", "quantifier": "every string obtainable from the API", "why_tests_cant": "whether a copy is made depends on the escape bookkeeping of arbitrary strings", "anchors": ["src/string.rs: JsonString::decode_if_needed, escape_if_needed, From<&str>, From<String>", "src/anystr.rs: From<&str>, From<String>"]}
{"id": "C88", "title": "Acceptance is RFC 8259's printed grammar", "statement": "Read the ABNF rules of RFC 8259 (with RFC 5234's meaning of ABNF) as derivations over Unicode code points. Without a recursion limit a text is accepted exactly if it is derivable from JSON-text with surrogate escapes only in pairs; with trailing commas allowed the array and object rules take one optional extra separator, and the strict configuration derives (object / array) instead of value. With a limit, accepted texts are derivable and derivable texts are accepted or reported as nested too deeply. Everything accepted by default is derivable from the rules exactly as printed, and a text derivable from the printed rules that contains no surrogate escape is accepted.", "quantifier": "every text, every byte sequence, every configuration", "why_tests_cant": "equivalence of a recursive-descent parser with a published grammar concerns infinitely many texts", "anchors": ["src/parser.rs: Parser::parse_bytes, read_tokens, read_object, read_array, Tokenizer", "src/value.rs: Value::from_json, from_json_bytes, from_json_with_config"]}
{"id": "C89", "title": "Parsing time is linear: the input is looked at at most (9n+5)/2 times", "statement": "Count every access of the parser to a byte of its input (each peek, each read, each byte skipped, each byte handed to UTF-8 validation). For every input, configuration and delegate, and however the run ends, parsing n bytes makes at most (9n+5)/2 accesses, independently of nesting depth; a successful run makes more than n. Any sequence of tokenizer calls makes at most 9/2 accesses per byte moved over plus two per call.", "quantifier": "every byte sequence, every configuration, every delegate, every history of tokenizer calls", "why_tests_cant": "a complexity bound quantifies over inputs of every length; timings of finitely many inputs cannot exclude a quadratic case", "anchors": ["src/parser.rs: Parser::parse_bytes, Tokenizer::next, next_or_eof, peek, ByteIterator"]}
{"id": "C90", "title": "The input is looked at front to back, at most five times per byte, never further than one byte ahead", "statement": "Log the position of every access to the input. The log is complete: any input that has the same bytes at the logged positions (and ends where the first ends, if its end is among them) gives the same result, the same delegate state and the same log. No position, nor the end of the input, is looked at more than five times; what is looked at is an initial part of the input, all of it when parsing succeeds. After any sequence of Tokenizer calls, everything observed depends only on the first offset()+1 bytes: bytes further on cannot influence tokens already returned.", "quantifier": "every pair of byte sequences, every configuration, every delegate, every history of tokenizer calls", "why_tests_cant": "a statement about pairs of inputs and about accesses, not about outputs of one run", "anchors": ["src/parser.rs: Parser::parse_bytes, Tokenizer::next, next_or_eof, peek, ByteIterator"]}
{"id": "C91", "title": "The parser treats a delegate's values, handles and state as opaque", "statement": "If two ParseDelegates cannot be told apart through some relation between their states, values, handles and errors, then parsing any input with them gives related results, errors at the same offsets and related final states (queries have to agree only where the configuration uses them: is_empty without allowing_trailing_commas, kind_of without all types at root). Hence: functions that commute with all callbacks commute with parsing; a delegate forwarding every callback to two others returns to each what parsing with it alone returns, unless the other stops it; a stateless delegate that only combines what it is given computes a structural recursion over the Value that Value::from_json returns, and fails exactly as it does.", "quantifier": "every pair of delegates, every relation, every input, every configuration", "why_tests_cant": "quantifies over all user-defined delegates and relations between them", "anchors": ["src/parser.rs: Parser::parse_bytes, read_tokens, read_object, read_array, ParseDelegate"]}
{"id": "C92", "title": "Overflow checks make no difference", "statement": "A build without arithmetic overflow checks (release) behaves like one with them (debug): reading an escape gives the same result on every input and in every tokenizer state; pulling chars from decoded() gives the same chars for every string a program can have, and from as_json() for every string whatsoever; serializing any value (nested no deeper than usize can count; in particular every parsed value) makes the same calls to the writer and returns the same; the lengths counted in the nodes of a document stay below half the number of bytes of the input.", "quantifier": "every input, every tokenizer state, every obtainable string, every value, every writer, both pointer widths", "why_tests_cant": "tests are run in one build mode and on finitely many strings; a wrapped subtraction shows only on some inputs", "anchors": ["src/string.rs: merge_surrogate_pair, Decoded::next, AsJson::next", "src/parser.rs: Tokenizer::read_string_escape", "src/value.rs: WriteState", "src/doc.rs: Nodes::extend_object, extend_array"]}
{"id": "C93", "title": "The writer hands over text only", "statement": "For every value a program can build, each call the serializer makes to its destination is a write_str of a non-empty UTF-8 string or a write_char of a char (with a caller-supplied indentation and line ending the only other strings are these two); so there are at most as many calls as bytes of output, and a destination that returns an error has by then been given a UTF-8 prefix of the text.", "quantifier": "every constructible value, every fmt::Write implementation, compact and pretty, both pointer widths", "why_tests_cant": "a test sees the calls made for one value; the claim is about all values and about all points at which a destination may fail", "anchors": ["src/value.rs: WriteState, Value::write_json_to, Value::pretty_write_json_to_custom", "src/string.rs: AsJson::next, Display for AsJson"]}
{"id": "C94", "title": "The input can be cut at an error offset", "statement": "For every byte input, config and delegate, the input before the offset of a reported error is valid UTF-8; over a &str the offset is a char boundary, so &s[..e.offset()] and &s[e.offset()..] never panic. The same holds for Tokenizer::offset() and its errors up to and including the first error (after an error a tokenizer may stand inside a character).", "quantifier": "every input (bytes or str), every config, every delegate (truthful or not), every entry point, every error-free tokenizer history", "why_tests_cant": "a test slices at the offsets of a few errors; whether some error in some nesting lands inside a multi-byte character needs all inputs", "anchors": ["src/parser.rs: Tokenizer, Parser::read_tokens, read_object, read_array", "src/error.rs: Error::offset"]}
{"id": "C95", "title": "One value per line", "statement": "Writing values compactly, each followed by a line feed (or CR LF), and reading the text line by line gives back exactly the texts, however the values nest and whatever their strings contain; for parsed values each line parses to the value that was written (JSON Lines / NDJSON).", "quantifier": "every list of values a program can have (parsed ones for the round trip), both line ends, every config", "why_tests_cant": "tests write a few records; whether some nested string, key or number text can bring a line break into the output needs all values", "anchors": ["src/value.rs: Value::to_json, WriteState", "src/string.rs: AsJson"]}
{"id": "C96", "title": "Tokens, errors, configurations and parse results compare as their contents", "statement": "`==` on two tokens returned by tokenizers never panics, is an equivalence relation, and holds exactly if they are the same sign or literal, number texts are identical, and strings decode to the same text. `==` on errors is equality of offset and kind (delegate errors by their own ==); on ParseConfig, JsonKind and PeekableTokenKind it is equality. Comparing two parse results never panics and holds exactly if both are the same error, or both are values of the same structure with equal decoded strings and identical number texts.", "quantifier": "all pairs of tokens returned by any tokenizers, all errors, configs, all pairs of parses (any text, config, str or bytes)", "why_tests_cant": "tests compare a few tokens and errors; that == never confuses two kinds nor panics on any spelling of a string needs all pairs", "anchors": ["src/parser.rs: Token, PeekableTokenKind, JsonKind, ParseConfig (derived PartialEq)", "src/error.rs: Error, ErrorKind (derived PartialEq)", "src/value.rs: Value (derived PartialEq)"]}
{"id": "C97", "title": "Debug output tells values apart", "statement": "`{:?}` and `{:#?}` of any two values, strings, numbers, tokens, nodes, documents, errors, configurations or kinds a program can have print the same text exactly if the two are the same (structure, key order, stored text, form and ownership, offsets), whatever the strings contain; in particular values that print the same are ==. The text is UTF-8; `{:?}` is a single line without control characters and `{:#?}` has none but newlines.", "quantifier": "all pairs of values built or parsed, of strings, numbers, returned tokens, nodes of parsed documents, errors, configs; any Unicode table of std; both modes", "why_tests_cant": "tests compare Debug output of a few literals; that no string content can imitate the surrounding syntax needs all strings", "anchors": ["src/value.rs: Value, Object, Entry (derived Debug)", "src/string.rs: JsonString, StringContents, Debug for JsonStringInfo", "src/anystr.rs: AnyStr", "src/number.rs: JsonNumber", "src/doc.rs: Node, GenericDocument", "src/parser.rs: Token, PeekableTokenKind, JsonKind, ParseConfig", "src/error.rs: Error, ErrorKind"]}
{"id": "C98", "title": "The parts of a value are the lexemes of the text, in order", "statement": "If a text is accepted, it consists of whitespace and lexemes, and the lexemes other than `}`, `]`, `:` and `,` are, in order, exactly what the parts of the value (the nodes of the document; each container before its parts, each key before its value) begin with: `{`, `[`, or all of the literal - for strings their source with its quotes, for numbers their source. So the sources are disjoint slices of the input in document order, together no longer than the input, and there are at most as many nodes as bytes.", "quantifier": "every accepted input (str or bytes), every configuration, values and documents of any capacity", "why_tests_cant": "tests compare a few parsed literals; that no source is shifted, repeated or taken from elsewhere needs every text", "anchors": ["src/parser.rs: Parser::parse_json_with_config, Tokenizer", "src/value.rs: Value::from_json_with_config", "src/doc.rs: Document::from_json_with_config, Node"]}
{"id": "C99", "title": "No history of calls reaches undefined behaviour or an unexpected panic", "statement": "A program that uses the library only through its safe API - any sequence of calls, each given texts and bytes the program brings in and things it got from earlier calls (values, objects, strings, numbers, documents, iterators, tokenizers; also parts replaced through mutable references) - never makes the library treat bytes that are not UTF-8 as text or make a char that is not one. No call panics except: making a JsonString or Value from text longer than isize::MAX/6 bytes; counting the encoding of a raw string longer than isize::MAX/2 bytes (as_json, escape_if_needed, to_json*); v[i] and v[key] when there is no such part; Object::insert and remove beyond the end. What such programs can hold is exactly what the other properties range over: `obtainable` strings, `constructible` values, parsed documents, `reachable` tokenizers.", "quantifier": "every finite history of API calls with every argument, both pointer widths", "why_tests_cant": "tests run a few short histories; unsafe code must be sound after every history, whatever the program mixes and edits", "anchors": ["src/string.rs: JsonString (unsafe from_utf8_unchecked, char::from_u32_unchecked)", "src/parser.rs: Parser, Tokenizer (unsafe from_utf8_unchecked)", "src/value.rs: Value", "src/object.rs: Object", "src/doc.rs: Document, DocumentIter"]}
{"id": "C100", "title": "Every delegate is told the tokens of the input, in order", "statement": "Whatever a delegate does - tell the truth about its containers or not, fail, panic, change its mind - the callbacks it gets are made for the first tokens the Tokenizer returns for the same input, in order, each token once, colons and commas left out; if parsing succeeds, for all the tokens of the input. So any two delegates, under any two configurations, are told the same as long as both are told something, and the strings and numbers a delegate gets are ones a program could have had without it (valid, borrowed from the input, decoding without panics).", "quantifier": "every delegate (any state, handles, errors, panics), every configuration, every input (str or bytes), both pointer widths", "why_tests_cant": "tests use the crate's own well-behaved delegates; the claim is about all user code, also wrong code, on all inputs", "anchors": ["src/parser.rs: Parser::parse_bytes, read_tokens, read_object, read_array, ParseDelegate, Tokenizer::next"]}
{"id": "C101", "title": "A delegate can refuse JSON, but not make anything else accepted", "statement": "Whatever a delegate does - truthful or not, failing, panicking - parsing with it succeeds only on texts that are JSON (trailing commas aside) within the recursion limit. A text that is JSON is rejected only by an error or panic of the delegate's own, or because of its answers to *_is_empty (IllegalTrailingComma, only if the configuration disallows trailing commas) or kind_of (PayloadsShouldBeObjectOrArray, only if scalars are disallowed at the root). Every other error is the error of the text, with the kind and at the offset that parsing the text to a Value would report under the same recursion limit.", "quantifier": "every delegate (any state, handles, errors, panics), every configuration, every input (str or bytes), both pointer widths", "why_tests_cant": "tests use the crate's own well-behaved delegates; the claim is about all user code, also wrong code, on all inputs", "anchors": ["src/parser.rs: Parser::parse_bytes, read_tokens, read_object, read_array, ParseDelegate, ParseConfig"]}
