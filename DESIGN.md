# textwolf: formal model and proofs

The library in `/repo/include/textwolf` is header-only C++. The model is written by hand in Rocq (Coq 8.16.1),
function by function, with the C++ file and lines cited at each definition. Nothing was extracted from or run
against the code: the tie between model and code is the reading of the sources.

## Conventions of the model

* Bytes, code points and machine integers are `N` (signed ones `Z`); every place where C++ wraps (8, 16, 32, 64 bit)
  and where it can matter has the wrap written out. Indices into lists and fuel are `nat`.
* Each operation that touches the input returns an outcome (`Base.v`): `Ret` (normal return with new state),
  `Jump` (`longjmp` out of `SrcIterator::operator*`, with the state as it is at that moment),
  `Throw` (C++ exception), `Undef` (undefined behaviour: access outside of an array, read behind the
  end of a `char*` text, null pointer), `Fuel` (the bound of a loop was exhausted; also used to state non termination).
* Templates become parameters: iterators are a record of operations, character sets are an enumeration with
  operations over any iterator, the XML scanner is defined over any reader.
* `_refuted` theorems give a witness for a documented property that the code violates. What does hold is given beside it
  (an exact characterisation or a theorem with the suffix `_partial`).
* Below each property theorem an `Example` shows a concrete case meeting its hypotheses.

## Files

Model files contain definitions only. Specification files contain what the theorems are stated with, independent of the model functions.
`Props*.v` contain the property theorems, each with `Print Assumptions`. All other files are proofs.

| part | model | specification | properties |
|---|---|---|---|
| iterators, character sets, text scanner | `Base Iter CharMap Charset CodePages TextScanner` | `CharsetSpec ReadSpec` | `PropsText` C01-C12 |
| XML scanner: chunks, encodings, memory, termination, grammar | `XmlScanner` | `ScanSpec GrammarSpec` | `PropsScan` C13-C18 |
| XML scanner: documents | `XmlScanner` | `DocSpec`, `SectSpec`, `OpenSpec` | `PropsDoc` C19-C21, C25, C26, C46; `PropsOpen` C16, C25, C26 |
| XML scanner: tokens, masks, positions, copies, iterators | `XmlScanner XmlIter` | `TokenSpec` | `PropsToken` C22-C24, C43-C45, C47, C48, `PropsXmlIter` C87, C88 |
| buffer, tag stack, exceptions | `StaticBuffer TagStack Except` | in `PropsUtil` | `PropsUtil` C33-C35 |
| memory allocated and freed | `Memory` | `MemSpec` | `PropsMemory` C66 |
| differences of iterators | `IterDiff` | in `PropsDiff` | `PropsDiff` C67 |
| printer | `XmlPrinter` | `PrintSpec` | `PropsPrint` C27-C29 |
| tag stack without memory | `TagAlloc` | in `PropsAlloc` | `PropsAlloc` C72 |
| output of the printer, errors of the printer | `Output`, `StaticBuffer`, `XmlPrinter` | in `PropsOutput` | `PropsOutput` C70, C71 |
| header parser | `XmlHdr` | `HdrSpec` | `PropsHdr` C30-C32, C49-C51 |
| header parser and scanner on the same document | `XmlHdr XmlScanner` | in `PropsHdrScan` | `PropsHdrScan` C63 |
| path automaton and selector | `PathAtm PathSelect PathExtra AtmFail AtmFailMem PathIter SelFail AtmFailCopy PrintFail XmlFail MemFail Retry` | `PathSpec PathProg PathMatch PathDesc AtmFailMemSpec SelGrowSpec PathIterSpec RetrySpec` | `PropsPath` C36-C40, `PropsCopy` C53, `PropsDesc` C38 C89, `PropsRange` C90, `PropsAtmFail` C91, `PropsAtmFailMem` C92, `PropsSelGrow` C93, `PropsPathIter` C94, `PropsSelFail` C95, `PropsAtmFailCopy` C96, `PropsPrintFail` C97, `PropsXmlFail` C98, `PropsMemFail` C99, `PropsRetry` C100 |
| safety and inspection of automaton and selector | `PathInspect` | `InspectSpec` | `PropsInspect` C64, C65 |
| path expressions of arbitrary bytes | `PathParse` | in `PropsParseSafe` | `PropsParseSafe` C68 |
| path expressions as text | `PathParse` | `ParseSpec` | `PropsParse` C41, C42 |
| scanner, expressions and selector together | all of these | `PipeSpec` | `PropsSelect`, `PropsPipe` C52 |
| memory of the selector | `PathSelect` | in `PropsRestore` | `PropsRestore` C73 |
| printer, scanner, expressions and selector together | all of these | `PrintSpec`, `PathMatch` | `PropsPrintSelect` C69 |
| example programs | `Examples` | `ExampleSpec` | `PropsExamples` C74 |
| header parser used again, chunks of a SrcIterator | `XmlHdr`, `Iter` | in `PropsReset` | `PropsReset` C75, C76, C47_end |
| names and values of paths | `XmlScanner`, `PathAtm` | `key_chars` in `PropsKey` | `PropsKey` C77 |
| interrupted calls with another mask | `XmlScanner` | `attempts` in `PropsRemask` | `PropsRemask` C78 |
| increments behind the end of the memory | `StrictIter` | `same_outcome` in `PropsStrict`, `scanStrict` in `PropsStrictChunk` | `PropsStrict` `PropsStrictChunk` C79 |
| iterators of clients | any | `ClientSpec` | `PropsTest` C80 |
| test programs | `TestText`, `TestProgs`, `TestSelect` | `TestSpec`, `SelectTestSpec` | `PropsTest` C81, `PropsTest2` C82, C83, `PropsTest3`, `PropsTest4` C86 |
| automata printed | `AtmPrint` | in `PropsAtmPrint` | `PropsAtmPrint` C84 |
| memory of automata | `AtmMemory` | `AtmValue` | `PropsAtmMem` C85 |
| kinds of sources | (Iter) | `SourceFwd SourceSim SourceCstr SourceBack` | `PropsSource`, `PropsWrap` C55, C15; `PropsKinds` C59 |
| std::istream as source | `StdStream` | `StdSim` (proofs) | `PropsStd` C56-C58 |
| texts without sections | | `EndsSpec Ends` | `PropsEnds` C15, C16 |
| every text, right or wrong | `XmlScanner` | `XmlSpec` | `PropsXml` C59, C16, C46 |
| every sequence of bytes | `TextScanner`, `XmlScanner` | `BytesSpec`, `XmlSpec` | `PropsBytes` C62, C04, C59, C16, C46 |
| equality of iterators, repeated ranges | `XmlIter`, `PathAtm` | in `PropsMore` | `PropsMore` C60, C61 |
| debug names | `Names` | in `PropsNames` | `PropsNames` C54 |

## What is modelled

| header | modelled | not modelled |
|---|---|---|
| `char.hpp` | `CharMap`, control characters with their names | |
| `charset_interface.hpp`, `charset_*.hpp` | all operations of UTF8, UTF16, UCS2, UCS4, IsoLatin, `Encoder` | |
| `codepages.hpp` | all tables, `ucharcode`, `invcode`, constructor | |
| `cstringiterator.hpp` | all | |
| `sourceiterator.hpp` | all; `longjmp` is the outcome `Jump`; increments beyond the memory pass in `Iter` and are undefined in `StrictIter` | stack unwinding |
| `istreamiterator.hpp` | constructors, `*`, `++`, position, difference, calls repeated after a failing read (`Retry`), over a schedule of reads and over `StdInputStream`, copies; default constructor, assignment and destructor in `Memory` | `std::istream` is modelled as bytes, end or error behind them and state bits |
| `textscanner.hpp` | all but `operator++` (= `skip`) and the copy constructor on its own (it copies every member) | |
| `xmlscanner.hpp` | state machine with its construction, all token functions, `nextItem`, `setSource`, copy constructor, iterators, static token parsing (as far as `xmlpathautomaton.hpp` uses it); with an output buffer whose push_back throws in `XmlFail` | |
| `staticbuffer.hpp`, `xmltagstack.hpp`, `exception.hpp` | all, memory as lists of bytes; allocation, implicit assignment and destructors in `Memory` | assignment when memory is short; failing `malloc`, `calloc` and `realloc` are in `TagAlloc` and `MemFail` |
| `xmlprinter.hpp` | all; with a buffer whose push_back throws in `PrintFail` | |
| `xmlhdrparser.hpp` | all | |
| `xmlpathautomaton.hpp` | masks, states, `defineNext`, `defineOutput`, all methods of `PathElement`, `getEmmitedTokens`, `tostring`; allocation and deletion of keys and names with the vector of the states; failing allocation in `AtmFail` and, with the blocks that are then not freed, in `AtmFailMem`; copies and assignments of automata in `AtmMemory` and, with failing allocation, in `AtmFailCopy` | |
| `xmlpathselect.hpp` | constructor, `expand`, `fetch` with everything below, iterators with prefix and postfix increment and the copy constructor, iterators as objects that are copied, assigned and destroyed in `PathIter`, `getTokenTypeMatchingStates`; failing allocation of the stacks in `SelFail` | |
| `xmlpathautomatonparse.hpp` | all | |
| `ostreamoutput.hpp` | all, with a stream modelled by its width, fill, adjustment, the bytes written and the room of the device | other manipulators, exceptions enabled on the stream, locales |
| `examples/*.cpp` | the four functions `output`, with `std::cout` as the list of bytes written | errors of `std::cout` |
| `tests/*.cpp` | the tests of text scanner, XML scanner and path selection, `Input` with its iterator and the loop of `readStdinIterator.cpp`; what is printed to `std::cout` | messages for `errno`, arguments of the programs |
| `position.hpp`, `traits.hpp`, `version.hpp`, `charset.hpp` | `PositionIndex` is 64 bit, `is_same` is the equality of character set classes | |

## Trusted base

* The kernel of Coq 8.16.1 (and `coqchk`). `Print Assumptions` reports "Closed under the global context" for every theorem in
  the `Props*.v` files: no axioms are used, neither of the standard library nor own ones.
* The model is a faithful transcription of the code on a platform where `char` is signed 8 bit, `unsigned short` 16 bit, `int` and
  `unsigned int` 32 bit, `size_t` 64 bit, little endian, with `malloc` that does not fail (where it may: `TagAlloc`, `MemFail`, `AtmFail`, `AtmFailMem`, `AtmFailCopy`, `SelFail`) and streams that obey their contract.
* The specifications say what the properties mean; they are short and listed in the table above.

## Properties

For each property: the statement, the theorems, and what they cover or miss.

* **C01 UTF-8 print/read round trip** (proved): `C01_utf8_roundtrip`. All characters up to 0x7FFFFFFF; SrcIterator, char* and IStreamIterator as source, any following bytes.
* **C02 UTF-16 print/read round trip** (proved): `C02_utf16_roundtrip`. Both byte orders.
* **C03 UCS-2 and UCS-4 print/read round trip** (proved): `C03_ucs2_roundtrip`, `C03_ucs4_roundtrip`. Both byte orders.
* **C04 ISO-8859 code page round trip** (partial): `C04_isolatin_exact`, `C04_isolatin_tables`, `C04_isolatin3_table_refuted`, `C04_isolatin_readback`, `C04_latin1_roundtrip`, `C04_isolatin_below256_partial`, `C04_isolatin_roundtrip_refuted`. The property is false for pages other than 1 (characters above 255 are printed as reference) and the table of page 3 differs from the standard; the exact behaviour is proved (C04_isolatin_exact: the character read for every byte in every page).
* **C05 Characters outside the target character set become numeric character references** (partial): `C05_reference`, `C05_utf8_refuted`. Proved for all character sets except UTF-8; refuted for UTF-8 (characters from 2^31 on).
* **C06 Malformed UTF-8 is signalled and never crashes** (proved): `C06_utf8_malformed`. 
* **C07 Unpaired UTF-16 surrogates are signalled** (partial): `C07_surrogate_refuted`, `C07_surrogate_exact_partial`. False for a second unit below 0xDC00; the delivered value is given exactly for every second unit.
* **C08 Text scanner observers agree and are idempotent** (partial): `C08_observers`, `C08_copychar_refuted`. control(), ascii(), chr() and skip() proved; copychar() depends on the calls before (UTF-16).
* **C09 CStringIterator delivers the string followed by null characters** (partial): `C09_cstring_partial`, `C09_cstring_exact`, `C09_cstring_refuted`. Exact behaviour for all strings and numbers of increments; property itself holds below 2^32.
* **C10 IStreamIterator is independent of the read schedule** (proved): `C10_istream_schedule`, `C10_istream_error`. The position does not grow behind the end of the input.
* **C100 A read of the stream that fails for a time** (partial): `C100_iterator`, `C100_scan_partial`, `C100_scan_only_partial`, `C100_scan_refuted`. C100_iterator: true of the iterator, all bytes are delivered with their positions. Refuted for the scanner (C100_scan_refuted): the byte read with *input is kept before ++input throws, but not counted; the repeated call reads a null character in its place. C100_scan_partial and C100_scan_only_partial: exactly these bytes are lost, for all reads, all character sets, all texts and all masks; of UTF-8 only for texts without characters of more than one byte: a read that fails while such a character is skipped loses nothing, so it depends on the calls what is lost. C100_iterator: no read fails and delivers something. The scanner theorems are for any reads: the byte lost is replaced by the first byte a failing read delivers, else by a null character.
* **C11 SrcIterator positions are absolute over chunks** (proved): `C11_position_absolute`. 
* **C12 Interrupted character reads resume without loss** (proved): `C12_resume`. All character sets, any chunks (also empty ones).
* **C13 Scanning does not depend on chunk boundaries** (proved): `C13_chunks`, `C13_chunks_putinput`, `C13_chunks_only`, `C13_chunks_putinput_only`, `C13_chunks_hang`, `C13_malformed_refuted`. Both ways to supply a chunk (new iterator, putInput); with putInput also the positions are the same. C13_chunks_only, C13_chunks_putinput_only: the scan in chunks delivers nothing else; C13_chunks_hang: the calls on the chunks do not end exactly if those on the text in one piece do not. Documents with incomplete UTF-8 sequences are excluded by the quantifier; for them the elements can depend on the chunks (C13_malformed_refuted).
* **C14 Scanning does not depend on the encoding of the document** (proved): `C14_encodings`. Any two of the character sets, including the ISO-8859 pages.
* **C15 The scanner never leaves its fixed size buffers or tables** (proved): `C15_no_undefined_behaviour`, `C15_istream`, `C15_charptr_partial`, `C15_charptr_exact`, `C15_charptr_refuted`. SrcIterator (any chunks) and IStreamIterator; an interrupted call is repeated with the same mask (for other masks see C78). With a char* as source an unclosed comment is read behind the terminating null character (C15_charptr_refuted): the source, not a buffer or table of the scanner, is left. C15_charptr_partial: not for texts without such sections. C15_charptr_exact: for whole characters this happens exactly if the scan of the text with a known end would not come to an end.
* **C16 nextItem terminates** (partial): `C16_exact`, `C16_bytes_exact`, `C16_bound`, `C16_ends_partial`, `C16_unclosed`, `C16_refuted`, `C16_chunk_ends`. False: unclosed comments, processing instructions, CDATA sections and entity lists at the end of the text are never left. Proved: the steps needed are bounded linearly in the text length or the call never ends, calls on an announced-to-continue chunk always end, and (C16_ends_partial) every call ends for texts without such sections, also if they are not well formed; and (C16_unclosed) for every document followed by any such unclosed section the call behind the last element never ends, in one piece and in any chunks. C16_exact: the calls up to the end or the first error do not all end exactly for the texts the rules of C59 read as Endless (C16_bytes_exact: for texts of arbitrary bytes).
* **C17 Exit is final** (proved): `C17_exit_final`. For any kind of input.
* **C18 Element sequences follow the documented grammar** (partial): `C18_grammar_partial`, `C18_grammar_any_source_partial`, `C18_grammar_refuted`. Proved with repeated CloseTagIm elements allowed; the strict grammar is refuted by <a/ >. Also proved across reported errors.
* **C19 One close element for each self closing tag** (partial): `C19_close_elements`, `C19_one_close_partial`, `C19_refuted`. False for white space between / and >: each such character delivers one more CloseTagIm (exact count proved for all documents). One element per tag is proved for tags without it.
* **C20 End of line normalisation** (proved): `C20_end_of_line`. All character sets of input and output.
* **C21 Character references are decoded** (proved): `C21_references`. References up to 15 digits and values below 2^32; in tag names, attribute names, attribute values and content.
* **C22 User defined entities are replaced** (partial): `C22_no_effect`, `C22_refuted`. Refuted: the keys of the entity map are pointers compared by identity with the address of a buffer of the scanner; for every map whose keys are other addresses the scan equals the scan without a map.
* **C23 Text that is not a character reference is delivered literally** (partial): `C23_literal_partial`, `C23_refuted`, `C59_elements`, `C59_total`. The exact delivery for every text after an ampersand is given by amp_reads in XmlSpec.v (C59). Literal delivery proved for ampersands followed by names not ended by a semicolon and by decimal digits not ended by a semicolon, in attribute values and text. Refuted for hexadecimal references without digits (x lost), references without digits (null character) and numbers above 32 bits (doubled semicolon).
* **C24 Masking elements does not change the structure** (proved): `C24_masks`. For every input and all mask sequences; the alternative is an undefined entity in a token masked out before.
* **C25 Comments disappear** (partial): `C25_comments_partial`, `C25_comment_alternative`, `C16_unclosed`, `C25_refuted`. False: white space following a comment is dropped, and --- followed by > does not end a comment. Proved: the exact rule (a comment ends at the first > that follows an even number of dashes, not none; otherwise the scanner does not end), for comments before text not starting with a blank.
* **C26 CDATA sections deliver their text** (partial): `C26_cdata_dropped`, `C26_cdata_alternative`, `C16_unclosed`, `C26_refuted`. False: the text of a CDATA section is never delivered (proved for all CDATA texts), and its end is the first > that follows 2, 5, 8, ... closing brackets (proved; if there is none the scanner does not end).
* **C27 Printer keeps tags balanced** (proved): `C27_balanced`. For every sequence of calls, with total text sizes within the memory bound of the tag stack.
* **C28 Printer escapes markup** (proved): `C28_escaped`, `C28_no_markup`. Every value printed in content or as attribute value.
* **C29 Printed documents scan back to what was printed** (partial): `C29_documents_partial`, `C29_refuted`. False: CR in content is not escaped and scanned as LF, the names are not checked, and a tag opened behind an attribute name gives an empty value. Proved for all other sequences of calls (doc_calls in PrintSpec.v) and ASCII based application character sets; carriage returns are included, they are scanned as the normalised ends of line (eol) in contents, header and doctype and exactly in attribute values.
* **C30 Header parser does not depend on chunk boundaries** (proved): `C30_chunks`, `C30_total`. 
* **C31 Header parser works for every character width** (proved): `C31_width`, `C31_charsets`. For every padding with up to three null bytes and for ASCII text in every character set.
* **C32 Header parser finds the encoding** (proved): `C32_exact`. Equivalence: accepted exactly if the text begins with an XML header or a start tag as described by xml_start, for every padding and every chunking, with encoding and number of visible characters.
* **C33 Static buffer stays in bounds and reports overflow** (partial): `C33_history`, `C33_history_supplied`, `C33_first_bytes`, `C33_at_partial`, `C33_refuted`. Contents and overflow flag are exact for every history of calls. False in general: at() and operator[] accept the index equal to the size, which leaves the memory of a full buffer, and resize() beyond the capacity does not set the overflow flag.
* **C34 Tag stack is a stack of strings** (proved): `C34_stack_of_strings`. For total stack sizes up to 2^62 bytes.
* **C35 Exceptions name their cause** (partial): `C35_names_partial`, `C35_refuted`. A missing comma in the table of names merges two entries: right exactly for the causes before NotAllowedOperation, shifted by one from there on, and no text for the last cause.
* **C36 Path selection is exact** (proved): `C36_exact`, `C36_programs`. C36_exact: for every list of tag paths (steps with names, wildcards, descendants; open tag, content, close tag and attribute outputs) defined with method calls in a character set of bytes and every sequence of elements without header in document order, each type is reported for each element as often as the path matches the names of the open elements. C36_programs: the same with conditions on attributes, ranges and documents with header for the declarative counting hits_of. For attribute steps for all descendants see C89.
* **C37 Closing a tag restores the selection context** (proved): `C37_context`, `C37_plain`, `C37_after`. C37_context: for every automaton, selector state and whole element. What may change are counters of ranges and tokens killed by refused elements (attribute steps of descendants); C37_after: removing a whole element does not change what is reported behind it, for paths without range.
* **C38 Expressions do not influence each other** (partial): `C38_partial`, `C38_separate`, `C38_refuted`. Refuted: a path looking for attributes in all descendants loses matches when another path makes the scope see content. Proved for all other paths (C38_partial), and with such paths if they are not those in question or if the paths added report no contents (C38_separate).
* **C39 Index ranges select the elements with these indices** (partial): `C39_counted_partial`, `C39_refuted`. Refuted: every reported element is counted twice. C39_counted_partial states exactly which indices are reported.
* **C40 Iterating with prefix or postfix increment is equivalent** (partial): `C40_partial`, `C40_nothing`, `C40_refuted`. Refuted for close tags with results: the destructor of the copy closes the scope again. Proved for all other elements and for close tags without result.
* **C41 Path expressions in text form mean the same as the builder calls** (proved): `C41_accepts`, `C41_calls`, `C41_selects`. C41_accepts: the grammar accepted, exactly, for every automaton. C41_calls: for expressions without alternatives the automaton is the one of the method calls, for every automaton and outcome. C41_selects: for lists of expressions with alternatives and with rejected expressions in between, the selection of every document is the one of the method calls. Texts are the encodings of null free characters without byte sequence '::' of a size below 2^32-8; objects of character sets are default constructed as in the code.
* **C42 Every tag name can be used in a path expression** (partial): `C42_exact`, `C42_partial`, `C42_refuted`. Refuted: dash, two colons, and characters of which the last byte is an operator or zero. C42_exact: these are all exceptions.
* **C43 Token positions address the source** (proved): `C43_positions`. For every input and all calls whose mask selects the element; HeaderStart and errors carry no token.
* **C44 A copy of a scanner continues like the original** (partial): `C44_copy_partial`, `C44_refuted`. Copies made between calls without an error in a keyword before. Refuted for copies made in a token (on an interrupt) and after an error in a keyword.
* **C45 Iterator reports errors as text** (partial): `C45_null_partial`, `C45_error_is_item`, `C45_refuted`. error() is not null exactly for errors, but it points to the item and not to the description.
* **C46 Documents are scanned to their elements** (proved): `C46_documents`, `C46_documents_in_chunks`, `C46_accepted`, `C46_bytes_accepted`. C46_accepted: conversely every text scanned up to Exit without error is one the rules of C59 read so. Document grammar in DocSpec.v. Its elements include the deviations of the scanner stated in C19, C25 and C26.
* **C47 Iterating visits the elements of the scanner** (proved): `C47_loop`, `C47_end`. C47_end: iterators at the end stay there, an iterator made without reading stands before the first element.
* **C48 Postfix increment returns the previous element** (partial): `C48_postfix_partial`, `C48_content_invalid`, `C48_content_later`, `C48_refuted`. Type and size are those of the previous element; the content pointer is invalid for every element with content, the first one and every later one; what prefix increments visit can be read.
* **C49 Byte order marks are accepted by the header parser** (partial): `C49_bom_refused`, `C49_refuted`. Refuted: no document with a byte order mark is accepted.
* **C50 A copy of a header parser continues like the original** (partial): `C50_copy_partial`, `C50_lost`, `C50_refuted`. Result and number of characters agree for every state; the only difference is that an encoding or error message found before the copy is null unless another one is found afterwards.
* **C51 Header parser counts the characters consumed** (partial): `C51_refuted`, `C32_exact`. Refuted: white space is not counted. C32_exact states what is counted.
* **C52 Selecting from a document given as text delivers what the paths address** (proved): `C52_select`, `C52_expressions`, `C52_texts`. C52_select: paths of tags, contents, attributes and close tags against the tree reading (matches_of). C52_expressions: all expressions, also with conditions, ranges and rejected ones in between, and documents with a header, counted by hits_of. The documents are those of doc_ok (C46) where no tag is closed that is not open. C52_texts: the same for every text of bytes, right or wrong, up to its end or first error, as long as no tag is closed that is not open.
* **C53 A copy of a path selector continues like the original** (partial): `C53_silent`, `C53_idle`, `C53_copy_partial`, `C53_refuted`. Refuted: the context is not copied. C53_silent: with every element that is not an open tag a copy reports nothing. C53_copy_partial: copies made outside of all tags are right if only open tags are waited for there.
* **C54 Debug names are the names of the enumerators** (partial): `C54_names`, `C54_distinct`, `C54_seekop_partial`, `C54_seekop_refuted`. All tables are right. Refuted for the name of the operation of a mask: the one of ThisAttributeValue is named AttributeValue.
* **C55 Scanning does not depend on the kind of source** (partial): `C55_istream`, `C55_charptr`, `C55_charptr_only`, `C55_cstring`, `C55_charptr_refuted`, `C55_cstring_only_refuted`. C55_istream in both directions for streams without read errors. C55_charptr and C55_charptr_only in both directions for a char* if the scan returns. C55_cstring whenever the scan of the text with SrcIterator returns (it does not for the unclosed sections of C16, where a char* is read behind its end, C15). C55_charptr_refuted: if the last UTF-8 sequence is incomplete, the null terminator is skipped. C55_cstring_only_refuted: the converse of C55_cstring is false, after 2^32 null characters in an unclosed comment the position of a CStringIterator wraps and the beginning of the text closes the comment.
* **C56 Reading a std::istream delivers the contents of the file** (proved): `C56_file`, `C56_scan`. std::istream is modelled by the bytes it delivers, what happens behind them and its state bits.
* **C57 A copy of an IStreamIterator continues like the original** (partial): `C57_copy_partial`, `C57_copy_only`, `C57_refuted`. Refuted: the stream is shared, so bytes get lost if both read a new block. Proved as long as both stay in the block read before the copy was made, and if only the copy is used.
* **C58 Errors of the input device are not taken for the end of the input** (partial): `C58_error_partial`, `C58_error_refuted`. Proved for error numbers other than 0, the bytes of the last incomplete block are lost. Refuted for devices that do not set errno.
* **C59 Every text has one reading** (proved): `C59_total`, `C59_unique`, `C59_elements`, `C59_errors`, `C59_endless`, `C59_bytes_elements`, `C59_bytes_errors`, `C59_bytes_endless`, `C59_istream`, `C59_charptr`. Rules in XmlSpec.v (text_reads): C59_total says that they cover every text, C59_unique that no text has two readings, the others that every reading they give is what the scanner does. C59_bytes_*: the same for texts of arbitrary bytes, with the characters of BytesSpec.v; over chunks only if a UTF-8 text has complete sequences (see C13). C59_istream, C59_charptr: the same for an input stream and for null terminated memory, where a text without end for the scanner is read behind the terminator.
* **C60 Equality of scanner iterators** (partial): `C60_equal_partial`, `C60_order`, `C60_refuted`. Refuted: an iterator at an element is not equal to itself. C60_equal_partial states exactly which iterators are equal, C60_order symmetry and transitivity.
* **C61 Several ranges of a path element are intersected** (partial): `C61_partial`, `C61_to_from`, `C61_refuted`. Refuted for a range inside of the one given before (its start is ignored) and for a range without end (the limit is lost). Proved for all others, in particular for TO and FROM in any order.
* **C62 Characters read from arbitrary bytes** (proved): `C62_characters`. Characters and positions for arbitrary bytes; the reading of one character is char_at in BytesSpec.v.
* **C63 Header parser and scanner agree on the encoding** (partial): `C63_encoding`, `C63_agree_partial`, `C63_refuted`. C63_encoding: for documents with a header of the attributes version, encoding and standalone in quotes, in every character set and in any chunks, the header parser finds the encoding as it is written. C63_agree_partial: it is the value the scanner delivers, if the value has no references and no carriage returns. Refuted otherwise: references are not decoded by the header parser, and values without quotes and other attributes are refused.
* **C64 The path selector is safe for every order of calls** (proved): `C64_selector`, `C64_elements`. For every automaton built with path element calls with readable names and without the largest int as upper index, and every finite sequence of calls. Numbers in range: an upper index or TO is not the largest int (idx+1 overflows for it, which is undefined). Failing allocations are in C95.
* **C65 Inspection of automaton and selector** (proved): `C65_emitted`, `C65_emitted_ends`, `C65_states`. C65_emitted: exact, with multiplicity, for programs with a meaning (paths_of); as steps without name are not shared, it is stated for all states making the same steps together. C65_states: the states listed by the selector exist and match the type of element; which of the matching states are active is not stated.
* **C66 Memory of buffers, tag stacks and stream iterators** (partial): `C66_history_partial`, `C66_all_freed`, `C66_assigned`, `C66_refuted`. Proved for all histories without assignments and default constructed stream iterators; the memory lost is counted exactly. C66_assigned: after an assignment from an object with memory of its own, destroying both is always undefined. Refuted: the copy of a buffer on supplied memory is never freed, a stream iterator with a failing first read does not free its buffer, assignment shares or loses memory, a default constructed stream iterator frees an uninitialised pointer. Failing allocations are in C99.
* **C67 Differences of iterators** (partial): `C67_cstring`, `C67_chunk_partial`, `C67_stream_partial`, `C67_refuted`. Proved for CStringIterator, for SrcIterator inside of a chunk, and for IStreamIterator exactly if both are in the same block. Refuted for the next block of a stream and for a next chunk read into the same memory.
* **C68 Path expressions of arbitrary bytes** (partial): `C68_any_text`, `C68_position_refuted`, `C68_wide_refuted`, `C68_ampersand_refuted`. C68_any_text: proved for every list of texts and automata with names in UTF-8 or IsoLatin; the value returned is at most 8 more than the size. Refuted: the position reported can lie behind the text (a sequence cut off at the end), with every character set of several bytes the name is read behind its end, and an ampersand in a value is taken as null character.
* **C69 Printed documents are selected as they were printed** (proved): `C69_expressions`, `C69_paths`. For documents as in C29 (no attribute names without value) and expressions as in C41. C69_paths states the reports by counting the ways of the paths through the tags opened by the calls.
* **C70 What the printer has printed has arrived** (partial): `C70_buffer`, `C70_stream`, `C70_refuted`. Refuted: the calls succeed although a StaticBuffer or the device of a stream took only a part of the text, and the width of a stream pads the first character. C70_buffer and C70_stream say exactly what arrives and when the buffer or stream signals the loss.
* **C71 The last error of the printer tells why a call failed** (partial): `C71_exact`, `C71_said_partial`, `C71_refuted`. Refuted: attributes and close tags fail without a message, and a message stays after calls that succeed. C71_exact gives the last error after every list of calls; C71_said_partial: all other failing calls set their message.
* **C72 A tag stack that could not get memory can be used further** (partial): `C72_exact`, `C72_kept`, `C72_safe_partial`, `C72_refuted`. C72_exact: the outcome of every history with every sequence of answers of malloc and realloc. C72_kept: failed calls change no tags. Refuted: push doubles the size before realloc fails, so a later push writes behind the memory; printOpenTag has printed the tag already. C72_safe_partial: histories without a push behind a failed one are right, and a copy of the stack can be used again.
* **C73 The memory of the selector depends on the open tags only** (partial): `C73_restored_partial`, `C73_refuted`. C73_restored_partial: for every automaton, tags that are closed leave stacks, tokens, triggers and scope as they were, but for the counters. Refuted for the bound: the tokens of an expression that looks for k tags in all descendants grow with the k-th power of the depth.
* **C74 The example programs print what the documents contain** (partial): `C74_scanner`, `C74_chunks`, `C74_select`, `C74_text`, `C74_message_refuted`. Proved for the lines printed, with the reading of the text given by the rules of C59; the last chunk must carry a null character, without it the calls only return false. Refuted for the text of the exception: it is the item read when the error was found, often empty, and does not tell the error (iterator elements return their content as error).
* **C75 A header parser can be used again** (partial): `C75_clear`, `C75_exception`, `C75_error`, `C75_refuted`. Refuted for the last error: an error stays as last error until clear, also if parse returns true afterwards.
* **C76 A SrcIterator tells where it is in its chunk** (proved): `C76_chunk`, `C76_loop`, `C76_unfed`. 
* **C77 Names and values given to path elements are compared as they are given** (partial): `C77_exact`, `C77_key_partial`, `C77_refuted`. C77_exact tells what is compared for every text: a null character for each ampersand, and only the text up to the first character that is none of a name, cut at 1024 bytes. So the statement holds exactly for the texts of characters of names (C77_key_partial, iff) and is refuted for others, e.g. a value with a blank.
* **C78 An interrupted call can be repeated with another mask** (partial): `C78_steady`, `C78_growing_partial`, `C78_refuted`, `C78_digits_refuted`, `C78_newline_refuted`, `C78_tail_refuted`. Refuted: if the item interrupted is not wanted any more, the place in the buffer for references stays; then a keyword like CDATA is compared from behind its end (C78_refuted), the digits read get in front of those of a later reference, or a later line feed is lost. Proved: no undefined behaviour if each attempt wants what the one before wanted (C78_growing_partial), the same result if all attempts want the same (C78_steady).
* **C79 The pointer of a SrcIterator stays in its memory** (partial): `C79_pointer`, `C79_refuted_always`, `C79_exit_refuted`, `C79_terminated_partial`, `C79_chunk_refuted`, `C79_chunks_partial`. Refuted for every document: operator* knows the end, operator++ does not, and each byte looked at is followed by an increment. Whoever gets the Exit element of a text without null character has moved the pointer behind (C79_exit_refuted); the increments are undefined exactly where a char* over the same memory is read behind its end (C79_pointer). Proved: a null character at the end of the memory, counted with the chunk, avoids it and nothing else changes (C79_terminated_partial). These are about the last chunk of a text. Chunks with a continuation: refuted with a UTF-8 character that is skipped and cut (C79_chunk_refuted); proved for all chunks before the last one in all other character sets and for UTF-8 with one byte per character, wherever characters are cut (C79_chunks_partial).
* **C80 Iterators of clients** (proved): `C80_scan`, `C80_text`. The requirements are reads_null in ClientSpec: an iterator that cannot go on behind the null character is none, see C83_scanner_refuted; char* is treated in C55.
* **C81 The test of the text scanner passes for the right reason** (partial): `C81_passes`, `C81_program`, `C81_first_refuted`. Proved: all tests of the program pass, and the test passes for every other enumeration if the pseudo random loop ends. Refuted: a failure at the first character is returned as 0, which the caller takes for a test passed.
* **C82 The test of the XML scanner prints positions and elements** (partial): `C82_dump`, `C82_lines`, `C82_refuted`. Refuted for the text of the program: it has 135 characters, the lines with ten characters read four bytes behind the terminator of the literal. This happens exactly for texts whose last line has neither ten nor nine characters (C82_dump). Proved for all others, without a known order of positions; texts that have no end for the scanner (C16) are left out.
* **C83 The file iterator of the test program** (partial): `C83_loop`, `C83_bytes`, `C83_behind_undefined`, `C83_behind_stale`, `C83_scanner_refuted`. Proved up to the first null character behind the file, for the loop of the program and for any number of increments up to there. Refuted behind it: getchar does not set back bufpos at the end of the file, so the next increment reads bytes of the buffer never written or behind it, or a byte of the chunk before; the XML scanner makes this increment.
* **C84 The text printed for an automaton** (partial): `C84_told`, `C84_apostrophe_refuted`, `C84_address`, `C84_built`, `C84_range_refuted`. Proved without ranges and apostrophes in names. Refuted: with an apostrophe in a name the number of states is not told. With the end of a range the stream is written to itself: in C++98 the text has the address of the stream, exactly for these automata (C84_address); later standards refuse the line.
* **C85 The memory of automata** (partial): `C85_history_partial`, `C85_all_freed`, `C85_next`, `C85_output`, `C85_no_place`, `C85_assigned`, `C85_assigned_smaller`, `C85_assigned_refuted`. Proved for all histories without assignment of automata with states to automata with states, and with it if the vector assigned to has no place. Refuted else: State has no operator=, the pointers are copied by std::vector::operator=, keys and names are deleted twice, in any order of destruction (C85_assigned); without destruction a further path deletes what the other automaton uses (C85_assigned_refuted). Failing allocation is in C92 and C96.
* **C86 The test of the path selection** (partial): `C86_automaton`, `C86_returns`, `C86_prints`, `C86_program`, `C86_selects`, `C86_program_selects`, `C86_error_refuted`, `C86_endless_refuted`. Proved: what is printed, for all paths and all texts read to their end; the paths of the program are among them. C86_selects: which numbers an element is selected with, in the terms of C89, for paths that do not look at close tags and texts with tags opened and closed in order; C86_program_selects: the paths of the program are among them. Refuted: the loop ends with Exit only, so that the test for an error behind it never succeeds (C86_returns): with an error in the text the program goes on and says OK or prints the error forever.
* **C87 Equality of XML iterators** (partial): `C87_equal_partial`, `C87_refuted`. Proved: the comparison is symmetric and transitive, and which iterators it calls equal. Refuted: it is not reflexive, an iterator that visits an element is not equal to itself; iterators of different scanners are equal if neither has visited an element.
* **C88 Loops with valid()** (proved): `C88_valid`, `C88_text`. C88_valid for every reader and configuration in both directions, C88_text for every UTF-8 text with the grammar of C59. What error() points to is the item of the scanner (C45).
* **C89 Attributes of all descendants** (proved): `C89_exact`, `C89_others`, `C89_texts`. C89_exact: the number of reports for each element is hits_d_of, the counting of C36 where a content looked at ends the wait for attributes of descendants, for the elements without the contents that no path looks at (visible). C89_others: expressions without such steps, and all if no content is reported, have the exact counts of C36. C89_texts: the same for expressions given as text.
* **C90 What a path with several ranges reports** (partial): `C90_kept_partial`, `C90_bounds`, `C90_twice_refuted`, `C90_unlimited_refuted`. C61 is about the path element, this property about what is reported. Wrong as stated: doRange changes the end or else the start, so that RANGE(0,8) and then RANGE(5,7) report what RANGE(5,7) alone does not (C90_twice_refuted); RANGE(5,-1) has no bound at all and INDEX(-2) reports everything (C90_unlimited_refuted). C90_kept_partial is exact for any sequence of range calls. C90_bounds: FROM and TO in any order build the automaton of RANGE.
* **C91 An automaton that could not get memory can be used further** (partial): `C91_enough`, `C91_kept_partial`, `C91_link`, `C91_name`, `C91_link_refuted`, `C91_name_refuted`. True for failures of the push_back of the first state, of the push_back of the state that follows and of the new for the key: C91_kept_partial gives exactly what is selected by the calls that returned. False for the other two places: defineNext and defineOutput set link before the state is pushed, so that after the failure of the push_back every use of this list reads behind the states (C91_link; for the root already the constructor of a selector, C91_link_refuted); if the new for srckey fails, the state has its key but next is -1, the same step is then found and leads to the state -1 (C91_name, C91_name_refuted: undefined behaviour on trying the path again). C91_enough: with enough memory the model is that of the other properties. Missing: what is selected after a failure at one of the two harmful places, as long as the state is not reached.
* **C92 An automaton that could not get memory loses none** (partial): `C92_history`, `C92_enough`, `C92_lost_refuted`. C92_history: for every history, every answers of the allocations and every growth, the heap model runs as the model with one place per call (AtmFail, C91) says, with the same exceptions; no block is freed twice or read after that (that would be Undef); the blocks in use are those the states need and at most one for each call that failed in a push_back into an automaton with states. C92_enough: if no allocation fails, all memory is freed. False: a state is copied key first, and when the new for its name throws, the key is not deleted, as the destructor of an object not constructed is not run; C92_lost_refuted loses three blocks.
* **C93 A path may be defined while a selector is in use** (partial): `C93_safe`, `C93_late`, `C93_early`, `C93_refuted`, `C93_inside_refuted`. C93_safe: any paths defined between elements, nothing is Undef and all elements have their results; the paths are defined between the results of two elements, not between the results of one. C93_late: paths with a first step of their own never change the results of a selector created before. C93_early: paths that begin with a first step of a path defined before are selected by a selector that got no element yet as if defined before. False: that a path defined after the creation of the selector is always selected (C93_refuted), also for one that shares the first step if the element of this step is open (C93_inside_refuted). Not stated: what is selected after a definition with a shared first step in the middle of a document.
* **C94 Iterators of a path selection can be copied, assigned and destroyed** (partial): `C94_safe`, `C94_reads`, `C94_copy_refuted`, `C94_assign_refuted`. C94_safe: no undefined behaviour for any calls on iterators that exist. C94_reads: for every sequence of calls that reads all results of an element before the next one is given, and that destroys one iterator of each close tag, after its results have been read, the values delivered are those of a list of results the iterators of the element share. False otherwise: the destructor of every iterator of a close tag closes a scope, so a copy destroyed closes the tag around too (C94_copy_refuted), and with an iterator assigned from push the scope is closed before the results are read (C94_assign_refuted). There is one selector in the model.
* **C95 A path selector whose stacks cannot be enlarged** (partial): `C95_safe`, `C95_until`, `C95_enough`, `C95_states_refuted`, `C95_again_refuted`, `C95_scope_refuted`, `C95_sibling_refuted`, `C95_unchanged`. C95_safe: every sequence of calls before and after failures is free of undefined behaviour and ends, if states are not listed with the follows. C95_until: the results until the first call that throws are those without failures. C95_enough: without failures no call throws. False: listing the states with the follows after a failure reads behind the tokens (C95_states_refuted); an increment repeated after it threw delivers results twice (C95_again_refuted); an open tag whose scope was not saved makes its close tag close the tag around it (C95_scope_refuted), and its siblings are not selected any more (C95_sibling_refuted). C95_unchanged: only open tags, increments and copies can throw, and a copy that throws leaves the original as it was. Failures of the buffer of the caller are not modelled.
* **C96 Copies of automata that do not get their memory** (partial): `C96_history`, `C96_enough`, `C96_assign`, `C96_place`, `C96_shared_refuted`, `C96_lost_refuted`. C96_history: for every history of creating, extending, copying and destroying automata, every answers of the allocations and every growth, the heap model runs as the model without memory, in which a failing copy throws and does not exist; the blocks in use are those of the keys and names of the automata there are and at most one per failed copy and per call that failed in a push_back into an automaton with states. C96_enough: if no allocation fails nothing is lost. C96_assign: an assignment after any history to an automaton without states or without place is a copy, or throws and changes nothing, and all that follows is as without memory. C96_place: with place for the states, the automaton assigned to reads as the other one, or throws and reads as the first states of it. False: with place and fewer states a failing assignment leaves the automaton changed and sharing keys with the other one (C96_shared_refuted), and each failing copy can lose a key (C96_lost_refuted).
* **C97 Printing to a buffer that throws** (partial): `C97_call`, `C97_history`, `C97_until`, `C97_set_back`, `C97_set_back_refuted`. C97_call: what a call leaves in the buffer and the printer for each refused byte. C97_history: every history of calls with exceptions caught is defined and leaves the printer of the calls that returned, with the ends of start tags and close tags that were appended by calls that threw. C97_until: at the first exception the buffer holds a proper beginning of the text. C97_set_back: setting back the buffer and repeating the call does what the call does with a buffer that takes everything, but for open tags and contents in a start tag and the close tag of the root, for which it is false (C97_set_back_refuted: the end of the start tag is missing, the close tag is missing and the call fails; without setting back bytes are printed twice). Buffers where push_back of one byte does something else than append it or throw are not modelled.
* **C98 Scanning into a buffer that throws** (partial): `C98_call`, `C98_enough`, `C98_scan`, `C98_istream`, `C98_same`, `C98_refuted`. C98_call: for any reader, a call that returns is a call with a buffer that does not throw, and one that throws did so because of the buffer or the reader. C98_enough: without refusals the scan is the one of XmlScanner. C98_scan: text in memory with any entity map, repeated calls after exceptions; the texts differ by insertions of beginnings of a character or of an ampersand with what follows, or a missing end of ?xml. C98_istream: the same for an input stream read in any blocks, but for the positions. C98_same: nothing differs for low ASCII bytes without & and ?. That the texts are the same in general is false (C98_refuted: a first byte twice, ?x instead of ?xml, a reference that is too large repeated). Chunks, char* and CStringIterator only in C98_call.
* **C99 Buffers, stacks and iterators when memory is short** (partial): `C99_history_partial`, `C99_all_freed`, `C99_enough`, `C99_push_refuted`. C99_history_partial: all histories without assignment, default constructed iterators and pushes on a stack on which a push has failed: what each call answers and leaves, and the exact number of blocks allocated at the end; a copy of such a stack can be used without restriction. C99_all_freed: with all objects destroyed nothing is left, whatever failed. C99_enough: without failures it is the model of C66. Refuted for a push behind a failed one: it writes behind the memory (C99_push_refuted, the size is doubled before realloc fails; see C72 for exactly when).

## How the proofs work

* Readers: `Ideal.v` gives a scanner source as a list of units; `ReaderSim.v`, `IterSim.v`, `CstrSim.v` prove that every concrete iterator and
  character set simulates it, so that each theorem on the XML scanner is proved once for lists (`ScannerSim.v`).
* Chunks: a run that ends with `Jump` and is continued with more input equals the run on the concatenation (`ChunkRead.v`, `ChunkScan.v`, `ChunkTop.v`).
* Termination: the steps are bounded linearly in the length of the input or are infinite (`FuelMono.v`, `Term.v`).
* Documents: a grammar with the elements delivered (`DocSpec.v`); the run over each part is proved by induction on the part (`DocScan.v`, `DocTop.v`).
* Every text: rules in the style of a natural semantics (`XmlSpec.v`); totality by induction on the length (`XmlTotal.v`), the run of the state machine by induction on the rules (`XmlTok.v`, `XmlRuns.v`, `XmlTop.v`).
* Every sequence of bytes: a character that is not ASCII is a letter for the scanner, whatever it is. Such letters get numbers (`BytesSpec.v`), and the scanner is compared with the one reading these numbers (`CharReader.v`, `BytesProofs.v`).
* Printer: invariants over the calls, and the output is a document of the grammar (`PrintDoc.v`).
* Header parser: fold over the visible bytes, grammar equivalence (`HdrExact.v`).
* Paths: an automaton has a language of expressions (`PathTrie.v`); building extends the language (`PathBuild*.v`), running counts the embeddings of the expressions
  in the path of open tags (`PathRun*.v`).
* Expressions as text: the parser is proved equal to a parser on lists of characters (`ParseRun.v`), which is proved equivalent to the grammar (`ParseGram.v`).

## Deviations of the code found

* `charset_utf16.hpp`: the lower bound of the second surrogate is not checked (C07); `copychar` without `control` before loses the second surrogate (C08).
* `codepages.hpp`: the table of ISO 8859-3 has no entries for unassigned characters; characters above 255 are never found in the inverse maps (C04).
* `charset_utf8.hpp`: characters from 2^31 on are printed as a reference to a wrong value (C05).
* `cstringiterator.hpp`: positions wrap at 2^32 (C09).
* `istreamiterator.hpp`: a device error without `errno` is taken for the end of the input (C58), copies share the stream (C57).
* `xmlscanner.hpp`: unclosed comments, processing instructions, CDATA sections and entity lists never end (C16) and read behind a `char*` text (C15);
  `<a/ >` closes the tag twice (C18, C19); entity maps are keyed by pointers (C22); hexadecimal fallbacks lose characters (C23); white space behind comments is dropped (C25);
  CDATA text is dropped (C26); copies lose the state of the token (C44); `error()` returns the item (C45); postfix increments return an invalid pointer (C48); an iterator at an element is not equal to itself (C60); numbers too big for 32 bits are delivered with two semicolons, empty names of tags and attributes are accepted (C59);
  incomplete UTF-8 depends on the chunks (C13) and at the end of a `char*` text lets the scanner read behind the terminator (C55).
* `xmlprinter.hpp`: a carriage return in content is not escaped (C29).
* `xmlhdrparser.hpp`: byte order marks are refused (C49), copies lose the encoding (C50), white space is not counted (C51).
* `staticbuffer.hpp`: index equal to the size is accepted (C33). `exception.hpp`: missing comma in the table of names (C35).
* `xmlpathautomaton.hpp`, `xmlpathselect.hpp`: expressions influence each other (C38), elements are counted twice (C39), the start of a second range is ignored (C61), copies of result iterators close scopes (C40), copies of a selector lose the context (C53), the mask of `ThisAttributeValue` is named `AttributeValue` (C54), assigned automata share keys that are deleted twice (C85), a stream is written to itself (C84).
* `xmlpathautomatonparse.hpp`: characters are truncated to bytes, names with a dash or two colons are refused (C42).
