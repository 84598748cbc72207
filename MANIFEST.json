{
 "claims": [
  {
   "property": "C01",
   "status": "proved",
   "theorems": [
    "C01_utf8_roundtrip"
   ],
   "note": "All characters up to 0x7FFFFFFF; SrcIterator, char* and IStreamIterator as source, any following bytes."
  },
  {
   "property": "C02",
   "status": "proved",
   "theorems": [
    "C02_utf16_roundtrip"
   ],
   "note": "Both byte orders."
  },
  {
   "property": "C03",
   "status": "proved",
   "theorems": [
    "C03_ucs2_roundtrip",
    "C03_ucs4_roundtrip"
   ],
   "note": "Both byte orders."
  },
  {
   "property": "C04",
   "status": "partial",
   "theorems": [
    "C04_isolatin_exact",
    "C04_isolatin_tables",
    "C04_isolatin3_table_refuted",
    "C04_isolatin_readback",
    "C04_latin1_roundtrip",
    "C04_isolatin_below256_partial",
    "C04_isolatin_roundtrip_refuted"
   ],
   "note": "The property is false for pages other than 1 (characters above 255 are printed as reference) and the table of page 3 differs from the standard; the exact behaviour is proved (C04_isolatin_exact: the character read for every byte in every page)."
  },
  {
   "property": "C05",
   "status": "partial",
   "theorems": [
    "C05_reference",
    "C05_utf8_refuted"
   ],
   "note": "Proved for all character sets except UTF-8; refuted for UTF-8 (characters from 2^31 on)."
  },
  {
   "property": "C06",
   "status": "proved",
   "theorems": [
    "C06_utf8_malformed"
   ],
   "note": ""
  },
  {
   "property": "C07",
   "status": "partial",
   "theorems": [
    "C07_surrogate_refuted",
    "C07_surrogate_exact_partial"
   ],
   "note": "False for a second unit below 0xDC00; the delivered value is given exactly for every second unit."
  },
  {
   "property": "C08",
   "status": "partial",
   "theorems": [
    "C08_observers",
    "C08_copychar_refuted"
   ],
   "note": "control(), ascii(), chr() and skip() proved; copychar() depends on the calls before (UTF-16)."
  },
  {
   "property": "C09",
   "status": "partial",
   "theorems": [
    "C09_cstring_partial",
    "C09_cstring_exact",
    "C09_cstring_refuted"
   ],
   "note": "Exact behaviour for all strings and numbers of increments; property itself holds below 2^32."
  },
  {
   "property": "C10",
   "status": "proved",
   "theorems": [
    "C10_istream_schedule",
    "C10_istream_error"
   ],
   "note": "The position does not grow behind the end of the input."
  },
  {
   "property": "C100",
   "status": "partial",
   "theorems": [
    "C100_iterator",
    "C100_scan_partial",
    "C100_scan_only_partial",
    "C100_scan_refuted"
   ],
   "note": "C100_iterator: true of the iterator, all bytes are delivered with their positions. Refuted for the scanner (C100_scan_refuted): the byte read with *input is kept before ++input throws, but not counted; the repeated call reads a null character in its place. C100_scan_partial and C100_scan_only_partial: exactly these bytes are lost, for all reads, all character sets, all texts and all masks; of UTF-8 only for texts without characters of more than one byte: a read that fails while such a character is skipped loses nothing, so it depends on the calls what is lost. C100_iterator: no read fails and delivers something. The scanner theorems are for any reads: the byte lost is replaced by the first byte a failing read delivers, else by a null character."
  },
  {
   "property": "C11",
   "status": "proved",
   "theorems": [
    "C11_position_absolute"
   ],
   "note": ""
  },
  {
   "property": "C12",
   "status": "proved",
   "theorems": [
    "C12_resume"
   ],
   "note": "All character sets, any chunks (also empty ones)."
  },
  {
   "property": "C13",
   "status": "proved",
   "theorems": [
    "C13_chunks",
    "C13_chunks_putinput",
    "C13_chunks_only",
    "C13_chunks_putinput_only",
    "C13_chunks_hang",
    "C13_malformed_refuted"
   ],
   "note": "Both ways to supply a chunk (new iterator, putInput); with putInput also the positions are the same. C13_chunks_only, C13_chunks_putinput_only: the scan in chunks delivers nothing else; C13_chunks_hang: the calls on the chunks do not end exactly if those on the text in one piece do not. Documents with incomplete UTF-8 sequences are excluded by the quantifier; for them the elements can depend on the chunks (C13_malformed_refuted)."
  },
  {
   "property": "C14",
   "status": "proved",
   "theorems": [
    "C14_encodings"
   ],
   "note": "Any two of the character sets, including the ISO-8859 pages."
  },
  {
   "property": "C15",
   "status": "proved",
   "theorems": [
    "C15_no_undefined_behaviour",
    "C15_istream",
    "C15_charptr_partial",
    "C15_charptr_exact",
    "C15_charptr_refuted"
   ],
   "note": "SrcIterator (any chunks) and IStreamIterator; an interrupted call is repeated with the same mask (for other masks see C78). With a char* as source an unclosed comment is read behind the terminating null character (C15_charptr_refuted): the source, not a buffer or table of the scanner, is left. C15_charptr_partial: not for texts without such sections. C15_charptr_exact: for whole characters this happens exactly if the scan of the text with a known end would not come to an end."
  },
  {
   "property": "C16",
   "status": "partial",
   "theorems": [
    "C16_exact",
    "C16_bytes_exact",
    "C16_bound",
    "C16_ends_partial",
    "C16_unclosed",
    "C16_refuted",
    "C16_chunk_ends"
   ],
   "note": "False: unclosed comments, processing instructions, CDATA sections and entity lists at the end of the text are never left. Proved: the steps needed are bounded linearly in the text length or the call never ends, calls on an announced-to-continue chunk always end, and (C16_ends_partial) every call ends for texts without such sections, also if they are not well formed; and (C16_unclosed) for every document followed by any such unclosed section the call behind the last element never ends, in one piece and in any chunks. C16_exact: the calls up to the end or the first error do not all end exactly for the texts the rules of C59 read as Endless (C16_bytes_exact: for texts of arbitrary bytes)."
  },
  {
   "property": "C17",
   "status": "proved",
   "theorems": [
    "C17_exit_final"
   ],
   "note": "For any kind of input."
  },
  {
   "property": "C18",
   "status": "partial",
   "theorems": [
    "C18_grammar_partial",
    "C18_grammar_any_source_partial",
    "C18_grammar_refuted"
   ],
   "note": "Proved with repeated CloseTagIm elements allowed; the strict grammar is refuted by <a/ >. Also proved across reported errors."
  },
  {
   "property": "C19",
   "status": "partial",
   "theorems": [
    "C19_close_elements",
    "C19_one_close_partial",
    "C19_refuted"
   ],
   "note": "False for white space between / and >: each such character delivers one more CloseTagIm (exact count proved for all documents). One element per tag is proved for tags without it."
  },
  {
   "property": "C20",
   "status": "proved",
   "theorems": [
    "C20_end_of_line"
   ],
   "note": "All character sets of input and output."
  },
  {
   "property": "C21",
   "status": "proved",
   "theorems": [
    "C21_references"
   ],
   "note": "References up to 15 digits and values below 2^32; in tag names, attribute names, attribute values and content."
  },
  {
   "property": "C22",
   "status": "partial",
   "theorems": [
    "C22_no_effect",
    "C22_refuted"
   ],
   "note": "Refuted: the keys of the entity map are pointers compared by identity with the address of a buffer of the scanner; for every map whose keys are other addresses the scan equals the scan without a map."
  },
  {
   "property": "C23",
   "status": "partial",
   "theorems": [
    "C23_literal_partial",
    "C23_refuted",
    "C59_elements",
    "C59_total"
   ],
   "note": "The exact delivery for every text after an ampersand is given by amp_reads in XmlSpec.v (C59). Literal delivery proved for ampersands followed by names not ended by a semicolon and by decimal digits not ended by a semicolon, in attribute values and text. Refuted for hexadecimal references without digits (x lost), references without digits (null character) and numbers above 32 bits (doubled semicolon)."
  },
  {
   "property": "C24",
   "status": "proved",
   "theorems": [
    "C24_masks"
   ],
   "note": "For every input and all mask sequences; the alternative is an undefined entity in a token masked out before."
  },
  {
   "property": "C25",
   "status": "partial",
   "theorems": [
    "C25_comments_partial",
    "C25_comment_alternative",
    "C16_unclosed",
    "C25_refuted"
   ],
   "note": "False: white space following a comment is dropped, and --- followed by > does not end a comment. Proved: the exact rule (a comment ends at the first > that follows an even number of dashes, not none; otherwise the scanner does not end), for comments before text not starting with a blank."
  },
  {
   "property": "C26",
   "status": "partial",
   "theorems": [
    "C26_cdata_dropped",
    "C26_cdata_alternative",
    "C16_unclosed",
    "C26_refuted"
   ],
   "note": "False: the text of a CDATA section is never delivered (proved for all CDATA texts), and its end is the first > that follows 2, 5, 8, ... closing brackets (proved; if there is none the scanner does not end)."
  },
  {
   "property": "C27",
   "status": "proved",
   "theorems": [
    "C27_balanced"
   ],
   "note": "For every sequence of calls, with total text sizes within the memory bound of the tag stack."
  },
  {
   "property": "C28",
   "status": "proved",
   "theorems": [
    "C28_escaped",
    "C28_no_markup"
   ],
   "note": "Every value printed in content or as attribute value."
  },
  {
   "property": "C29",
   "status": "partial",
   "theorems": [
    "C29_documents_partial",
    "C29_refuted"
   ],
   "note": "False: CR in content is not escaped and scanned as LF, the names are not checked, and a tag opened behind an attribute name gives an empty value. Proved for all other sequences of calls (doc_calls in PrintSpec.v) and ASCII based application character sets; carriage returns are included, they are scanned as the normalised ends of line (eol) in contents, header and doctype and exactly in attribute values."
  },
  {
   "property": "C30",
   "status": "proved",
   "theorems": [
    "C30_chunks",
    "C30_total"
   ],
   "note": ""
  },
  {
   "property": "C31",
   "status": "proved",
   "theorems": [
    "C31_width",
    "C31_charsets"
   ],
   "note": "For every padding with up to three null bytes and for ASCII text in every character set."
  },
  {
   "property": "C32",
   "status": "proved",
   "theorems": [
    "C32_exact"
   ],
   "note": "Equivalence: accepted exactly if the text begins with an XML header or a start tag as described by xml_start, for every padding and every chunking, with encoding and number of visible characters."
  },
  {
   "property": "C33",
   "status": "partial",
   "theorems": [
    "C33_history",
    "C33_history_supplied",
    "C33_first_bytes",
    "C33_at_partial",
    "C33_refuted"
   ],
   "note": "Contents and overflow flag are exact for every history of calls. False in general: at() and operator[] accept the index equal to the size, which leaves the memory of a full buffer, and resize() beyond the capacity does not set the overflow flag."
  },
  {
   "property": "C34",
   "status": "proved",
   "theorems": [
    "C34_stack_of_strings"
   ],
   "note": "For total stack sizes up to 2^62 bytes."
  },
  {
   "property": "C35",
   "status": "partial",
   "theorems": [
    "C35_names_partial",
    "C35_refuted"
   ],
   "note": "A missing comma in the table of names merges two entries: right exactly for the causes before NotAllowedOperation, shifted by one from there on, and no text for the last cause."
  },
  {
   "property": "C36",
   "status": "proved",
   "theorems": [
    "C36_exact",
    "C36_programs"
   ],
   "note": "C36_exact: for every list of tag paths (steps with names, wildcards, descendants; open tag, content, close tag and attribute outputs) defined with method calls in a character set of bytes and every sequence of elements without header in document order, each type is reported for each element as often as the path matches the names of the open elements. C36_programs: the same with conditions on attributes, ranges and documents with header for the declarative counting hits_of. For attribute steps for all descendants see C89."
  },
  {
   "property": "C37",
   "status": "proved",
   "theorems": [
    "C37_context",
    "C37_plain",
    "C37_after"
   ],
   "note": "C37_context: for every automaton, selector state and whole element. What may change are counters of ranges and tokens killed by refused elements (attribute steps of descendants); C37_after: removing a whole element does not change what is reported behind it, for paths without range."
  },
  {
   "property": "C38",
   "status": "partial",
   "theorems": [
    "C38_partial",
    "C38_separate",
    "C38_refuted"
   ],
   "note": "Refuted: a path looking for attributes in all descendants loses matches when another path makes the scope see content. Proved for all other paths (C38_partial), and with such paths if they are not those in question or if the paths added report no contents (C38_separate)."
  },
  {
   "property": "C39",
   "status": "partial",
   "theorems": [
    "C39_counted_partial",
    "C39_refuted"
   ],
   "note": "Refuted: every reported element is counted twice. C39_counted_partial states exactly which indices are reported."
  },
  {
   "property": "C40",
   "status": "partial",
   "theorems": [
    "C40_partial",
    "C40_nothing",
    "C40_refuted"
   ],
   "note": "Refuted for close tags with results: the destructor of the copy closes the scope again. Proved for all other elements and for close tags without result."
  },
  {
   "property": "C41",
   "status": "proved",
   "theorems": [
    "C41_accepts",
    "C41_calls",
    "C41_selects"
   ],
   "note": "C41_accepts: the grammar accepted, exactly, for every automaton. C41_calls: for expressions without alternatives the automaton is the one of the method calls, for every automaton and outcome. C41_selects: for lists of expressions with alternatives and with rejected expressions in between, the selection of every document is the one of the method calls. Texts are the encodings of null free characters without byte sequence '::' of a size below 2^32-8; objects of character sets are default constructed as in the code."
  },
  {
   "property": "C42",
   "status": "partial",
   "theorems": [
    "C42_exact",
    "C42_partial",
    "C42_refuted"
   ],
   "note": "Refuted: dash, two colons, and characters of which the last byte is an operator or zero. C42_exact: these are all exceptions."
  },
  {
   "property": "C43",
   "status": "proved",
   "theorems": [
    "C43_positions"
   ],
   "note": "For every input and all calls whose mask selects the element; HeaderStart and errors carry no token."
  },
  {
   "property": "C44",
   "status": "partial",
   "theorems": [
    "C44_copy_partial",
    "C44_refuted"
   ],
   "note": "Copies made between calls without an error in a keyword before. Refuted for copies made in a token (on an interrupt) and after an error in a keyword."
  },
  {
   "property": "C45",
   "status": "partial",
   "theorems": [
    "C45_null_partial",
    "C45_error_is_item",
    "C45_refuted"
   ],
   "note": "error() is not null exactly for errors, but it points to the item and not to the description."
  },
  {
   "property": "C46",
   "status": "proved",
   "theorems": [
    "C46_documents",
    "C46_documents_in_chunks",
    "C46_accepted",
    "C46_bytes_accepted"
   ],
   "note": "C46_accepted: conversely every text scanned up to Exit without error is one the rules of C59 read so. Document grammar in DocSpec.v. Its elements include the deviations of the scanner stated in C19, C25 and C26."
  },
  {
   "property": "C47",
   "status": "proved",
   "theorems": [
    "C47_loop",
    "C47_end"
   ],
   "note": "C47_end: iterators at the end stay there, an iterator made without reading stands before the first element."
  },
  {
   "property": "C48",
   "status": "partial",
   "theorems": [
    "C48_postfix_partial",
    "C48_content_invalid",
    "C48_content_later",
    "C48_refuted"
   ],
   "note": "Type and size are those of the previous element; the content pointer is invalid for every element with content, the first one and every later one; what prefix increments visit can be read."
  },
  {
   "property": "C49",
   "status": "partial",
   "theorems": [
    "C49_bom_refused",
    "C49_refuted"
   ],
   "note": "Refuted: no document with a byte order mark is accepted."
  },
  {
   "property": "C50",
   "status": "partial",
   "theorems": [
    "C50_copy_partial",
    "C50_lost",
    "C50_refuted"
   ],
   "note": "Result and number of characters agree for every state; the only difference is that an encoding or error message found before the copy is null unless another one is found afterwards."
  },
  {
   "property": "C51",
   "status": "partial",
   "theorems": [
    "C51_refuted",
    "C32_exact"
   ],
   "note": "Refuted: white space is not counted. C32_exact states what is counted."
  },
  {
   "property": "C52",
   "status": "proved",
   "theorems": [
    "C52_select",
    "C52_expressions",
    "C52_texts"
   ],
   "note": "C52_select: paths of tags, contents, attributes and close tags against the tree reading (matches_of). C52_expressions: all expressions, also with conditions, ranges and rejected ones in between, and documents with a header, counted by hits_of. The documents are those of doc_ok (C46) where no tag is closed that is not open. C52_texts: the same for every text of bytes, right or wrong, up to its end or first error, as long as no tag is closed that is not open."
  },
  {
   "property": "C53",
   "status": "partial",
   "theorems": [
    "C53_silent",
    "C53_idle",
    "C53_copy_partial",
    "C53_refuted"
   ],
   "note": "Refuted: the context is not copied. C53_silent: with every element that is not an open tag a copy reports nothing. C53_copy_partial: copies made outside of all tags are right if only open tags are waited for there."
  },
  {
   "property": "C54",
   "status": "partial",
   "theorems": [
    "C54_names",
    "C54_distinct",
    "C54_seekop_partial",
    "C54_seekop_refuted"
   ],
   "note": "All tables are right. Refuted for the name of the operation of a mask: the one of ThisAttributeValue is named AttributeValue."
  },
  {
   "property": "C55",
   "status": "partial",
   "theorems": [
    "C55_istream",
    "C55_charptr",
    "C55_charptr_only",
    "C55_cstring",
    "C55_charptr_refuted",
    "C55_cstring_only_refuted"
   ],
   "note": "C55_istream in both directions for streams without read errors. C55_charptr and C55_charptr_only in both directions for a char* if the scan returns. C55_cstring whenever the scan of the text with SrcIterator returns (it does not for the unclosed sections of C16, where a char* is read behind its end, C15). C55_charptr_refuted: if the last UTF-8 sequence is incomplete, the null terminator is skipped. C55_cstring_only_refuted: the converse of C55_cstring is false, after 2^32 null characters in an unclosed comment the position of a CStringIterator wraps and the beginning of the text closes the comment."
  },
  {
   "property": "C56",
   "status": "proved",
   "theorems": [
    "C56_file",
    "C56_scan"
   ],
   "note": "std::istream is modelled by the bytes it delivers, what happens behind them and its state bits."
  },
  {
   "property": "C57",
   "status": "partial",
   "theorems": [
    "C57_copy_partial",
    "C57_copy_only",
    "C57_refuted"
   ],
   "note": "Refuted: the stream is shared, so bytes get lost if both read a new block. Proved as long as both stay in the block read before the copy was made, and if only the copy is used."
  },
  {
   "property": "C58",
   "status": "partial",
   "theorems": [
    "C58_error_partial",
    "C58_error_refuted"
   ],
   "note": "Proved for error numbers other than 0, the bytes of the last incomplete block are lost. Refuted for devices that do not set errno."
  },
  {
   "property": "C59",
   "status": "proved",
   "theorems": [
    "C59_total",
    "C59_unique",
    "C59_elements",
    "C59_errors",
    "C59_endless",
    "C59_bytes_elements",
    "C59_bytes_errors",
    "C59_bytes_endless",
    "C59_istream",
    "C59_charptr"
   ],
   "note": "Rules in XmlSpec.v (text_reads): C59_total says that they cover every text, C59_unique that no text has two readings, the others that every reading they give is what the scanner does. C59_bytes_*: the same for texts of arbitrary bytes, with the characters of BytesSpec.v; over chunks only if a UTF-8 text has complete sequences (see C13). C59_istream, C59_charptr: the same for an input stream and for null terminated memory, where a text without end for the scanner is read behind the terminator."
  },
  {
   "property": "C60",
   "status": "partial",
   "theorems": [
    "C60_equal_partial",
    "C60_order",
    "C60_refuted"
   ],
   "note": "Refuted: an iterator at an element is not equal to itself. C60_equal_partial states exactly which iterators are equal, C60_order symmetry and transitivity."
  },
  {
   "property": "C61",
   "status": "partial",
   "theorems": [
    "C61_partial",
    "C61_to_from",
    "C61_refuted"
   ],
   "note": "Refuted for a range inside of the one given before (its start is ignored) and for a range without end (the limit is lost). Proved for all others, in particular for TO and FROM in any order."
  },
  {
   "property": "C62",
   "status": "proved",
   "theorems": [
    "C62_characters"
   ],
   "note": "Characters and positions for arbitrary bytes; the reading of one character is char_at in BytesSpec.v."
  },
  {
   "property": "C63",
   "status": "partial",
   "theorems": [
    "C63_encoding",
    "C63_agree_partial",
    "C63_refuted"
   ],
   "note": "C63_encoding: for documents with a header of the attributes version, encoding and standalone in quotes, in every character set and in any chunks, the header parser finds the encoding as it is written. C63_agree_partial: it is the value the scanner delivers, if the value has no references and no carriage returns. Refuted otherwise: references are not decoded by the header parser, and values without quotes and other attributes are refused."
  },
  {
   "property": "C64",
   "status": "proved",
   "theorems": [
    "C64_selector",
    "C64_elements"
   ],
   "note": "For every automaton built with path element calls with readable names and without the largest int as upper index, and every finite sequence of calls. Numbers in range: an upper index or TO is not the largest int (idx+1 overflows for it, which is undefined). Failing allocations are in C95."
  },
  {
   "property": "C65",
   "status": "proved",
   "theorems": [
    "C65_emitted",
    "C65_emitted_ends",
    "C65_states"
   ],
   "note": "C65_emitted: exact, with multiplicity, for programs with a meaning (paths_of); as steps without name are not shared, it is stated for all states making the same steps together. C65_states: the states listed by the selector exist and match the type of element; which of the matching states are active is not stated."
  },
  {
   "property": "C66",
   "status": "partial",
   "theorems": [
    "C66_history_partial",
    "C66_all_freed",
    "C66_assigned",
    "C66_refuted"
   ],
   "note": "Proved for all histories without assignments and default constructed stream iterators; the memory lost is counted exactly. C66_assigned: after an assignment from an object with memory of its own, destroying both is always undefined. Refuted: the copy of a buffer on supplied memory is never freed, a stream iterator with a failing first read does not free its buffer, assignment shares or loses memory, a default constructed stream iterator frees an uninitialised pointer. Failing allocations are in C99."
  },
  {
   "property": "C67",
   "status": "partial",
   "theorems": [
    "C67_cstring",
    "C67_chunk_partial",
    "C67_stream_partial",
    "C67_refuted"
   ],
   "note": "Proved for CStringIterator, for SrcIterator inside of a chunk, and for IStreamIterator exactly if both are in the same block. Refuted for the next block of a stream and for a next chunk read into the same memory."
  },
  {
   "property": "C68",
   "status": "partial",
   "theorems": [
    "C68_any_text",
    "C68_position_refuted",
    "C68_wide_refuted",
    "C68_ampersand_refuted"
   ],
   "note": "C68_any_text: proved for every list of texts and automata with names in UTF-8 or IsoLatin; the value returned is at most 8 more than the size. Refuted: the position reported can lie behind the text (a sequence cut off at the end), with every character set of several bytes the name is read behind its end, and an ampersand in a value is taken as null character."
  },
  {
   "property": "C69",
   "status": "proved",
   "theorems": [
    "C69_expressions",
    "C69_paths"
   ],
   "note": "For documents as in C29 (no attribute names without value) and expressions as in C41. C69_paths states the reports by counting the ways of the paths through the tags opened by the calls."
  },
  {
   "property": "C70",
   "status": "partial",
   "theorems": [
    "C70_buffer",
    "C70_stream",
    "C70_refuted"
   ],
   "note": "Refuted: the calls succeed although a StaticBuffer or the device of a stream took only a part of the text, and the width of a stream pads the first character. C70_buffer and C70_stream say exactly what arrives and when the buffer or stream signals the loss."
  },
  {
   "property": "C71",
   "status": "partial",
   "theorems": [
    "C71_exact",
    "C71_said_partial",
    "C71_refuted"
   ],
   "note": "Refuted: attributes and close tags fail without a message, and a message stays after calls that succeed. C71_exact gives the last error after every list of calls; C71_said_partial: all other failing calls set their message."
  },
  {
   "property": "C72",
   "status": "partial",
   "theorems": [
    "C72_exact",
    "C72_kept",
    "C72_safe_partial",
    "C72_refuted"
   ],
   "note": "C72_exact: the outcome of every history with every sequence of answers of malloc and realloc. C72_kept: failed calls change no tags. Refuted: push doubles the size before realloc fails, so a later push writes behind the memory; printOpenTag has printed the tag already. C72_safe_partial: histories without a push behind a failed one are right, and a copy of the stack can be used again."
  },
  {
   "property": "C73",
   "status": "partial",
   "theorems": [
    "C73_restored_partial",
    "C73_refuted"
   ],
   "note": "C73_restored_partial: for every automaton, tags that are closed leave stacks, tokens, triggers and scope as they were, but for the counters. Refuted for the bound: the tokens of an expression that looks for k tags in all descendants grow with the k-th power of the depth."
  },
  {
   "property": "C74",
   "status": "partial",
   "theorems": [
    "C74_scanner",
    "C74_chunks",
    "C74_select",
    "C74_text",
    "C74_message_refuted"
   ],
   "note": "Proved for the lines printed, with the reading of the text given by the rules of C59; the last chunk must carry a null character, without it the calls only return false. Refuted for the text of the exception: it is the item read when the error was found, often empty, and does not tell the error (iterator elements return their content as error)."
  },
  {
   "property": "C75",
   "status": "partial",
   "theorems": [
    "C75_clear",
    "C75_exception",
    "C75_error",
    "C75_refuted"
   ],
   "note": "Refuted for the last error: an error stays as last error until clear, also if parse returns true afterwards."
  },
  {
   "property": "C76",
   "status": "proved",
   "theorems": [
    "C76_chunk",
    "C76_loop",
    "C76_unfed"
   ],
   "note": ""
  },
  {
   "property": "C77",
   "status": "partial",
   "theorems": [
    "C77_exact",
    "C77_key_partial",
    "C77_refuted"
   ],
   "note": "C77_exact tells what is compared for every text: a null character for each ampersand, and only the text up to the first character that is none of a name, cut at 1024 bytes. So the statement holds exactly for the texts of characters of names (C77_key_partial, iff) and is refuted for others, e.g. a value with a blank."
  },
  {
   "property": "C78",
   "status": "partial",
   "theorems": [
    "C78_steady",
    "C78_growing_partial",
    "C78_refuted",
    "C78_digits_refuted",
    "C78_newline_refuted",
    "C78_tail_refuted"
   ],
   "note": "Refuted: if the item interrupted is not wanted any more, the place in the buffer for references stays; then a keyword like CDATA is compared from behind its end (C78_refuted), the digits read get in front of those of a later reference, or a later line feed is lost. Proved: no undefined behaviour if each attempt wants what the one before wanted (C78_growing_partial), the same result if all attempts want the same (C78_steady)."
  },
  {
   "property": "C79",
   "status": "partial",
   "theorems": [
    "C79_pointer",
    "C79_refuted_always",
    "C79_exit_refuted",
    "C79_terminated_partial",
    "C79_chunk_refuted",
    "C79_chunks_partial"
   ],
   "note": "Refuted for every document: operator* knows the end, operator++ does not, and each byte looked at is followed by an increment. Whoever gets the Exit element of a text without null character has moved the pointer behind (C79_exit_refuted); the increments are undefined exactly where a char* over the same memory is read behind its end (C79_pointer). Proved: a null character at the end of the memory, counted with the chunk, avoids it and nothing else changes (C79_terminated_partial). These are about the last chunk of a text. Chunks with a continuation: refuted with a UTF-8 character that is skipped and cut (C79_chunk_refuted); proved for all chunks before the last one in all other character sets and for UTF-8 with one byte per character, wherever characters are cut (C79_chunks_partial)."
  },
  {
   "property": "C80",
   "status": "proved",
   "theorems": [
    "C80_scan",
    "C80_text"
   ],
   "note": "The requirements are reads_null in ClientSpec: an iterator that cannot go on behind the null character is none, see C83_scanner_refuted; char* is treated in C55."
  },
  {
   "property": "C81",
   "status": "partial",
   "theorems": [
    "C81_passes",
    "C81_program",
    "C81_first_refuted"
   ],
   "note": "Proved: all tests of the program pass, and the test passes for every other enumeration if the pseudo random loop ends. Refuted: a failure at the first character is returned as 0, which the caller takes for a test passed."
  },
  {
   "property": "C82",
   "status": "partial",
   "theorems": [
    "C82_dump",
    "C82_lines",
    "C82_refuted"
   ],
   "note": "Refuted for the text of the program: it has 135 characters, the lines with ten characters read four bytes behind the terminator of the literal. This happens exactly for texts whose last line has neither ten nor nine characters (C82_dump). Proved for all others, without a known order of positions; texts that have no end for the scanner (C16) are left out."
  },
  {
   "property": "C83",
   "status": "partial",
   "theorems": [
    "C83_loop",
    "C83_bytes",
    "C83_behind_undefined",
    "C83_behind_stale",
    "C83_scanner_refuted"
   ],
   "note": "Proved up to the first null character behind the file, for the loop of the program and for any number of increments up to there. Refuted behind it: getchar does not set back bufpos at the end of the file, so the next increment reads bytes of the buffer never written or behind it, or a byte of the chunk before; the XML scanner makes this increment."
  },
  {
   "property": "C84",
   "status": "partial",
   "theorems": [
    "C84_told",
    "C84_apostrophe_refuted",
    "C84_address",
    "C84_built",
    "C84_range_refuted"
   ],
   "note": "Proved without ranges and apostrophes in names. Refuted: with an apostrophe in a name the number of states is not told. With the end of a range the stream is written to itself: in C++98 the text has the address of the stream, exactly for these automata (C84_address); later standards refuse the line."
  },
  {
   "property": "C85",
   "status": "partial",
   "theorems": [
    "C85_history_partial",
    "C85_all_freed",
    "C85_next",
    "C85_output",
    "C85_no_place",
    "C85_assigned",
    "C85_assigned_smaller",
    "C85_assigned_refuted"
   ],
   "note": "Proved for all histories without assignment of automata with states to automata with states, and with it if the vector assigned to has no place. Refuted else: State has no operator=, the pointers are copied by std::vector::operator=, keys and names are deleted twice, in any order of destruction (C85_assigned); without destruction a further path deletes what the other automaton uses (C85_assigned_refuted). Failing allocation is in C92 and C96."
  },
  {
   "property": "C86",
   "status": "partial",
   "theorems": [
    "C86_automaton",
    "C86_returns",
    "C86_prints",
    "C86_program",
    "C86_selects",
    "C86_program_selects",
    "C86_error_refuted",
    "C86_endless_refuted"
   ],
   "note": "Proved: what is printed, for all paths and all texts read to their end; the paths of the program are among them. C86_selects: which numbers an element is selected with, in the terms of C89, for paths that do not look at close tags and texts with tags opened and closed in order; C86_program_selects: the paths of the program are among them. Refuted: the loop ends with Exit only, so that the test for an error behind it never succeeds (C86_returns): with an error in the text the program goes on and says OK or prints the error forever."
  },
  {
   "property": "C87",
   "status": "partial",
   "theorems": [
    "C87_equal_partial",
    "C87_refuted"
   ],
   "note": "Proved: the comparison is symmetric and transitive, and which iterators it calls equal. Refuted: it is not reflexive, an iterator that visits an element is not equal to itself; iterators of different scanners are equal if neither has visited an element."
  },
  {
   "property": "C88",
   "status": "proved",
   "theorems": [
    "C88_valid",
    "C88_text"
   ],
   "note": "C88_valid for every reader and configuration in both directions, C88_text for every UTF-8 text with the grammar of C59. What error() points to is the item of the scanner (C45)."
  },
  {
   "property": "C89",
   "status": "proved",
   "theorems": [
    "C89_exact",
    "C89_others",
    "C89_texts"
   ],
   "note": "C89_exact: the number of reports for each element is hits_d_of, the counting of C36 where a content looked at ends the wait for attributes of descendants, for the elements without the contents that no path looks at (visible). C89_others: expressions without such steps, and all if no content is reported, have the exact counts of C36. C89_texts: the same for expressions given as text."
  },
  {
   "property": "C90",
   "status": "partial",
   "theorems": [
    "C90_kept_partial",
    "C90_bounds",
    "C90_twice_refuted",
    "C90_unlimited_refuted"
   ],
   "note": "C61 is about the path element, this property about what is reported. Wrong as stated: doRange changes the end or else the start, so that RANGE(0,8) and then RANGE(5,7) report what RANGE(5,7) alone does not (C90_twice_refuted); RANGE(5,-1) has no bound at all and INDEX(-2) reports everything (C90_unlimited_refuted). C90_kept_partial is exact for any sequence of range calls. C90_bounds: FROM and TO in any order build the automaton of RANGE."
  },
  {
   "property": "C91",
   "status": "partial",
   "theorems": [
    "C91_enough",
    "C91_kept_partial",
    "C91_link",
    "C91_name",
    "C91_link_refuted",
    "C91_name_refuted"
   ],
   "note": "True for failures of the push_back of the first state, of the push_back of the state that follows and of the new for the key: C91_kept_partial gives exactly what is selected by the calls that returned. False for the other two places: defineNext and defineOutput set link before the state is pushed, so that after the failure of the push_back every use of this list reads behind the states (C91_link; for the root already the constructor of a selector, C91_link_refuted); if the new for srckey fails, the state has its key but next is -1, the same step is then found and leads to the state -1 (C91_name, C91_name_refuted: undefined behaviour on trying the path again). C91_enough: with enough memory the model is that of the other properties. Missing: what is selected after a failure at one of the two harmful places, as long as the state is not reached."
  },
  {
   "property": "C92",
   "status": "partial",
   "theorems": [
    "C92_history",
    "C92_enough",
    "C92_lost_refuted"
   ],
   "note": "C92_history: for every history, every answers of the allocations and every growth, the heap model runs as the model with one place per call (AtmFail, C91) says, with the same exceptions; no block is freed twice or read after that (that would be Undef); the blocks in use are those the states need and at most one for each call that failed in a push_back into an automaton with states. C92_enough: if no allocation fails, all memory is freed. False: a state is copied key first, and when the new for its name throws, the key is not deleted, as the destructor of an object not constructed is not run; C92_lost_refuted loses three blocks."
  },
  {
   "property": "C93",
   "status": "partial",
   "theorems": [
    "C93_safe",
    "C93_late",
    "C93_early",
    "C93_refuted",
    "C93_inside_refuted"
   ],
   "note": "C93_safe: any paths defined between elements, nothing is Undef and all elements have their results; the paths are defined between the results of two elements, not between the results of one. C93_late: paths with a first step of their own never change the results of a selector created before. C93_early: paths that begin with a first step of a path defined before are selected by a selector that got no element yet as if defined before. False: that a path defined after the creation of the selector is always selected (C93_refuted), also for one that shares the first step if the element of this step is open (C93_inside_refuted). Not stated: what is selected after a definition with a shared first step in the middle of a document."
  },
  {
   "property": "C94",
   "status": "partial",
   "theorems": [
    "C94_safe",
    "C94_reads",
    "C94_copy_refuted",
    "C94_assign_refuted"
   ],
   "note": "C94_safe: no undefined behaviour for any calls on iterators that exist. C94_reads: for every sequence of calls that reads all results of an element before the next one is given, and that destroys one iterator of each close tag, after its results have been read, the values delivered are those of a list of results the iterators of the element share. False otherwise: the destructor of every iterator of a close tag closes a scope, so a copy destroyed closes the tag around too (C94_copy_refuted), and with an iterator assigned from push the scope is closed before the results are read (C94_assign_refuted). There is one selector in the model."
  },
  {
   "property": "C95",
   "status": "partial",
   "theorems": [
    "C95_safe",
    "C95_until",
    "C95_enough",
    "C95_states_refuted",
    "C95_again_refuted",
    "C95_scope_refuted",
    "C95_sibling_refuted",
    "C95_unchanged"
   ],
   "note": "C95_safe: every sequence of calls before and after failures is free of undefined behaviour and ends, if states are not listed with the follows. C95_until: the results until the first call that throws are those without failures. C95_enough: without failures no call throws. False: listing the states with the follows after a failure reads behind the tokens (C95_states_refuted); an increment repeated after it threw delivers results twice (C95_again_refuted); an open tag whose scope was not saved makes its close tag close the tag around it (C95_scope_refuted), and its siblings are not selected any more (C95_sibling_refuted). C95_unchanged: only open tags, increments and copies can throw, and a copy that throws leaves the original as it was. Failures of the buffer of the caller are not modelled."
  },
  {
   "property": "C96",
   "status": "partial",
   "theorems": [
    "C96_history",
    "C96_enough",
    "C96_assign",
    "C96_place",
    "C96_shared_refuted",
    "C96_lost_refuted"
   ],
   "note": "C96_history: for every history of creating, extending, copying and destroying automata, every answers of the allocations and every growth, the heap model runs as the model without memory, in which a failing copy throws and does not exist; the blocks in use are those of the keys and names of the automata there are and at most one per failed copy and per call that failed in a push_back into an automaton with states. C96_enough: if no allocation fails nothing is lost. C96_assign: an assignment after any history to an automaton without states or without place is a copy, or throws and changes nothing, and all that follows is as without memory. C96_place: with place for the states, the automaton assigned to reads as the other one, or throws and reads as the first states of it. False: with place and fewer states a failing assignment leaves the automaton changed and sharing keys with the other one (C96_shared_refuted), and each failing copy can lose a key (C96_lost_refuted)."
  },
  {
   "property": "C97",
   "status": "partial",
   "theorems": [
    "C97_call",
    "C97_history",
    "C97_until",
    "C97_set_back",
    "C97_set_back_refuted"
   ],
   "note": "C97_call: what a call leaves in the buffer and the printer for each refused byte. C97_history: every history of calls with exceptions caught is defined and leaves the printer of the calls that returned, with the ends of start tags and close tags that were appended by calls that threw. C97_until: at the first exception the buffer holds a proper beginning of the text. C97_set_back: setting back the buffer and repeating the call does what the call does with a buffer that takes everything, but for open tags and contents in a start tag and the close tag of the root, for which it is false (C97_set_back_refuted: the end of the start tag is missing, the close tag is missing and the call fails; without setting back bytes are printed twice). Buffers where push_back of one byte does something else than append it or throw are not modelled."
  },
  {
   "property": "C98",
   "status": "partial",
   "theorems": [
    "C98_call",
    "C98_enough",
    "C98_scan",
    "C98_istream",
    "C98_same",
    "C98_refuted"
   ],
   "note": "C98_call: for any reader, a call that returns is a call with a buffer that does not throw, and one that throws did so because of the buffer or the reader. C98_enough: without refusals the scan is the one of XmlScanner. C98_scan: text in memory with any entity map, repeated calls after exceptions; the texts differ by insertions of beginnings of a character or of an ampersand with what follows, or a missing end of ?xml. C98_istream: the same for an input stream read in any blocks, but for the positions. C98_same: nothing differs for low ASCII bytes without & and ?. That the texts are the same in general is false (C98_refuted: a first byte twice, ?x instead of ?xml, a reference that is too large repeated). Chunks, char* and CStringIterator only in C98_call."
  },
  {
   "property": "C99",
   "status": "partial",
   "theorems": [
    "C99_history_partial",
    "C99_all_freed",
    "C99_enough",
    "C99_push_refuted"
   ],
   "note": "C99_history_partial: all histories without assignment, default constructed iterators and pushes on a stack on which a push has failed: what each call answers and leaves, and the exact number of blocks allocated at the end; a copy of such a stack can be used without restriction. C99_all_freed: with all objects destroyed nothing is left, whatever failed. C99_enough: without failures it is the model of C66. Refuted for a push behind a failed one: it writes behind the memory (C99_push_refuted, the size is doubled before realloc fails; see C72 for exactly when)."
  }
 ]
}