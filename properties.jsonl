{"id": "C01", "title": "UTF-8 print/read round trip", "statement": "Printing a sequence of characters with the UTF8 character set and reading the resulting bytes with a text scanner delivers exactly the same characters in the same order and consumes exactly the printed bytes.", "quantifier": "for every finite sequence of characters up to 0x7FFFFFFF and whatever bytes follow", "why_tests_cant": "2^31 characters in unbounded sequences; boundaries between lengths interact with what follows", "anchors": ["include/textwolf/charset_utf8.hpp: UTF8::print, value, fetchbytes, skip", "include/textwolf/textscanner.hpp: TextScanner"]}
{"id": "C02", "title": "UTF-16 print/read round trip", "statement": "Printing a sequence of characters with UTF16LE or UTF16BE and reading it back delivers the same characters, for all characters up to 0x10FFFF outside the high surrogate block.", "quantifier": "for every sequence of such characters, both byte orders", "why_tests_cant": "surrogate arithmetic over 10^6 characters, unbounded sequences", "anchors": ["include/textwolf/charset_utf16.hpp: UTF16::print, value_impl, size, skip"]}
{"id": "C03", "title": "UCS-2 and UCS-4 print/read round trip", "statement": "Printing a sequence of characters with UCS2LE/BE (characters up to 0xFFFF) or UCS4LE/BE (any 32 bit value) and reading it back delivers the same characters.", "quantifier": "for every sequence of characters in the stated range, both byte orders", "why_tests_cant": "2^32 characters in unbounded sequences", "anchors": ["include/textwolf/charset_ucs.hpp: UCS2, UCS4"]}
{"id": "C04", "title": "ISO-8859 code page round trip", "statement": "A text in an IsoLatin code page that is decoded to Unicode and printed with the same code page yields the original bytes, and code page tables agree with the ISO-8859 standard.", "quantifier": "for every code page 1..9 and every byte string", "why_tests_cant": "the byte string is unbounded and each of 9*256 entries has to be right", "anchors": ["include/textwolf/charset_isolatin.hpp: IsoLatin::print, value", "include/textwolf/codepages.hpp: IsoLatinCodePage::ucharcode, invcode"]}
{"id": "C05", "title": "Characters outside the target character set become numeric character references", "statement": "Printing a character that a character set cannot represent emits the ASCII text of a numeric character reference in that character set, and this reference denotes the printed character.", "quantifier": "for every character set and every non zero 32 bit character", "why_tests_cant": "2^32 characters times the character sets", "anchors": ["include/textwolf/charset_interface.hpp: Encoder::encode", "include/textwolf/charset_utf16.hpp: print", "include/textwolf/charset_ucs.hpp: print", "include/textwolf/charset_isolatin.hpp: print"]}
{"id": "C06", "title": "Malformed UTF-8 is signalled and never crashes", "statement": "Reading a byte string as UTF-8 delivers the character MaxChar (0x7FFFFFFF) for a unit that starts with a continuation byte or misses a continuation byte, never reads outside the eight byte character buffer, and always advances.", "quantifier": "for every byte string", "why_tests_cant": "all malformed byte strings; includes reads behind the end of the character buffer", "anchors": ["include/textwolf/charset_utf8.hpp: value, fetchbytes, size, skip"]}
{"id": "C07", "title": "Unpaired UTF-16 surrogates are signalled", "statement": "Reading UTF-16 where a high surrogate is not followed by a low surrogate delivers the replacement value 0xFFFF and not some other character.", "quantifier": "for every pair of 16 bit units, both byte orders", "why_tests_cant": "2^26 pairs; integer promotion rules decide the outcome", "anchors": ["include/textwolf/charset_utf16.hpp: value_impl"]}
{"id": "C08", "title": "Text scanner observers agree and are idempotent", "statement": "The results of control(), ascii() and chr() on the current character do not depend on how often or in which order they are called, and skip() afterwards always moves to the start of the next character of the input.", "quantifier": "for every input, every character set and every sequence of observer calls", "why_tests_cant": "unbounded interleavings of calls with partially filled character buffers", "anchors": ["include/textwolf/textscanner.hpp: TextScanner::control, ascii, chr, skip, copychar"]}
{"id": "C09", "title": "CStringIterator delivers the string followed by null characters", "statement": "Iterating with a CStringIterator delivers the bytes of the string in order and after them only null characters, and pos() is the number of increments done.", "quantifier": "for every string and every number of increments", "why_tests_cant": "behaviour at 2^32 increments and strings cannot be sampled", "anchors": ["include/textwolf/cstringiterator.hpp: CStringIterator"]}
{"id": "C10", "title": "IStreamIterator is independent of the read schedule", "statement": "The bytes delivered by an IStreamIterator and its position do not depend on how the underlying stream cuts its data into reads nor on the buffer size; a read error raises the FileReadError exception and is never turned into an end of input.", "quantifier": "for every buffer size and every sequence of non empty short reads", "why_tests_cant": "unbounded number of schedules of short reads", "anchors": ["include/textwolf/istreamiterator.hpp: IStreamIterator::operator++, operator*, fillbuf, position"]}
{"id": "C11", "title": "SrcIterator positions are absolute over chunks", "statement": "When a source is fed chunk by chunk with putInput, position() is the absolute byte offset of the current byte in the concatenation of the chunks.", "quantifier": "for every list of chunks and every point of iteration", "why_tests_cant": "unbounded histories of chunks", "anchors": ["include/textwolf/sourceiterator.hpp: SrcIterator::putInput, position"]}
{"id": "C12", "title": "Interrupted character reads resume without loss", "statement": "If the input chunk ends in the middle of a character, the reading of this character is interrupted and after supplying the next chunk the same call delivers the character formed by the bytes of both chunks.", "quantifier": "for every character set, every split point and every continuation", "why_tests_cant": "all split points of all byte strings", "anchors": ["include/textwolf/textscanner.hpp: getcur, chr, setSource", "include/textwolf/charset_utf8.hpp: fetchbytes", "include/textwolf/charset_utf16.hpp: value_impl"]}
{"id": "C13", "title": "Scanning does not depend on chunk boundaries", "statement": "Feeding a document to the XML scanner in chunks (with the end-of-message jump and setSource) delivers the same sequence of elements with the same contents as scanning the document in one piece, and its calls end exactly if those on the document in one piece end.", "quantifier": "for every document (for UTF-8: with complete multi byte sequences; any byte string for the other encodings), every element mask and every way of cutting it into chunks", "why_tests_cant": "every cut position interacts with every scanner and entity state; resumption point is encoded in hidden state", "anchors": ["include/textwolf/xmlscanner.hpp: nextItem, parseToken, parseTokenRecover, TokState, setSource", "include/textwolf/sourceiterator.hpp: SrcIterator"]}
{"id": "C14", "title": "Scanning does not depend on the encoding of the document", "statement": "Scanning the same text encoded in UTF-8, UTF-16, UCS-2 or UCS-4 (either byte order) with the same output character set delivers the same elements with the same contents.", "quantifier": "for every text over the characters representable in the encodings", "why_tests_cant": "unbounded texts times pairs of encodings", "anchors": ["include/textwolf/xmlscanner.hpp: XMLScanner", "include/textwolf/textscanner.hpp: TextScanner", "include/textwolf/charset_*.hpp"]}
{"id": "C15", "title": "The scanner never leaves its fixed size buffers or tables", "statement": "Scanning arbitrary bytes never indexes outside the character buffer, the entity buffer, the control character tables or the state table.", "quantifier": "for every byte string, every character set, every mask and every chunking", "why_tests_cant": "memory errors on unexplored inputs are invisible to tests", "anchors": ["include/textwolf/xmlscanner.hpp: TokState::buf, parseNumericBaseEntity, parseNamedEntity, nextItem", "include/textwolf/textscanner.hpp: buf"]}
{"id": "C16", "title": "nextItem terminates", "statement": "Every call of nextItem on a finite input returns after finitely many steps.", "quantifier": "for every input, every scanner state and every mask", "why_tests_cant": "non termination cannot be observed by a test", "anchors": ["include/textwolf/xmlscanner.hpp: nextItem, skipToken, parseToken, Statemachine"]}
{"id": "C17", "title": "Exit is final", "statement": "Once nextItem has returned Exit every further call returns Exit with empty content and without consuming input.", "quantifier": "for every history leading to Exit and every number of further calls", "why_tests_cant": "unbounded histories", "anchors": ["include/textwolf/xmlscanner.hpp: nextItem, Statemachine [EXIT]"]}
{"id": "C18", "title": "Element sequences follow the documented grammar", "statement": "The element types returned obey: a header part only at the start and opened by HeaderStart, attribute values only directly after an attribute name, attributes only inside an open tag, header attributes only inside the header, CloseTagIm only inside an open tag, None never.", "quantifier": "for every input and every sequence of calls without a reported error in between", "why_tests_cant": "unbounded element sequences over arbitrary inputs", "anchors": ["include/textwolf/xmlscanner.hpp: Statemachine, nextItem"]}
{"id": "C19", "title": "One close element for each self closing tag", "statement": "An immediately closed tag <a .../> delivers exactly one CloseTagIm element.", "quantifier": "for every layout of white space in the tag", "why_tests_cant": "layouts are unbounded", "anchors": ["include/textwolf/xmlscanner.hpp: Statemachine [TAGCLIM]"]}
{"id": "C20", "title": "End of line normalisation", "statement": "In content and attribute values a carriage return, optionally followed by a line feed, is delivered as one line feed and all other characters are delivered unchanged.", "quantifier": "for every text without entities and markup", "why_tests_cant": "unbounded texts; state carried from character to character", "anchors": ["include/textwolf/xmlscanner.hpp: parseToken, TokState::eolnState"]}
{"id": "C21", "title": "Character references are decoded", "statement": "Predefined entities and decimal or hexadecimal character references up to 15 digits with values up to 0xFFFFFFFF are delivered as the character they denote, printed in the output character set.", "quantifier": "for every reference value, in any token", "why_tests_cant": "2^32 values, any position in a token", "anchors": ["include/textwolf/xmlscanner.hpp: parseEntity, parseNumericEntity, parseNumericBaseEntity, parseNamedEntity, pushPredefinedEntity"]}
{"id": "C22", "title": "User defined entities are replaced", "statement": "A named entity defined in the entity map passed to the scanner is delivered as the character defined.", "quantifier": "for every entity map and every name defined in it", "why_tests_cant": "depends on pointer identity rather than on values a test prints", "anchors": ["include/textwolf/xmlscanner.hpp: EntityMap, pushEntity"]}
{"id": "C23", "title": "Text that is not a character reference is delivered literally", "statement": "An ampersand sequence that does not form a character reference is delivered unchanged as text.", "quantifier": "for every character sequence after an ampersand", "why_tests_cant": "unbounded malformed texts", "anchors": ["include/textwolf/xmlscanner.hpp: fallbackEntity, parseNumericBaseEntity, parseNamedEntity"]}
{"id": "C24", "title": "Masking elements does not change the structure", "statement": "The mask passed to nextItem has only influence on the content of the elements: the sequence of element types and the source positions are the same for every mask as long as no undefined entity is met.", "quantifier": "for every input and every sequence of masks", "why_tests_cant": "inputs times 2^15 masks per call", "anchors": ["include/textwolf/xmlscanner.hpp: nextItem, skipToken"]}
{"id": "C25", "title": "Comments disappear", "statement": "A comment <!-- ... --> in the content does not produce any element, whatever characters it contains, and scanning goes on directly after it.", "quantifier": "for every comment text without two subsequent dashes", "why_tests_cant": "unbounded comment texts", "anchors": ["include/textwolf/xmlscanner.hpp: Statemachine [COMDASH2..COMENDCL]"]}
{"id": "C26", "title": "CDATA sections deliver their text", "statement": "The text of a CDATA section is delivered as content.", "quantifier": "for every CDATA text", "why_tests_cant": "unbounded texts", "anchors": ["include/textwolf/xmlscanner.hpp: Statemachine [CDATA..CDATA3]"]}
{"id": "C27", "title": "Printer keeps tags balanced", "statement": "Whatever sequence of calls is made, each successful close call of the printer writes the end of the innermost open tag with the same name as it was opened with, and fails without output if no tag is open.", "quantifier": "for every sequence of printer calls", "why_tests_cant": "unbounded call histories", "anchors": ["include/textwolf/xmlprinter.hpp: XMLPrinter::printOpenTag, printCloseTag", "include/textwolf/xmltagstack.hpp: TagStack"]}
{"id": "C28", "title": "Printer escapes markup", "statement": "Text printed as attribute value or content never contains an unescaped markup character in the output, so it cannot change the structure of the document.", "quantifier": "for every text", "why_tests_cant": "unbounded texts (injection)", "anchors": ["include/textwolf/xmlprinter.hpp: printToBufferAttributeValue, printToBufferContent"]}
{"id": "C29", "title": "Printed documents scan back to what was printed", "statement": "Scanning the output of the printer delivers the elements printed: tag names, attribute names and values, and contents as passed to the printer.", "quantifier": "for every sequence of successful printer calls forming a document, every output character set and all texts without null characters", "why_tests_cant": "unbounded documents and texts; both sides have independent state machines", "anchors": ["include/textwolf/xmlprinter.hpp", "include/textwolf/xmlscanner.hpp"]}
{"id": "C30", "title": "Header parser does not depend on chunk boundaries", "statement": "Feeding a document start to the XML header parser in chunks delivers the same result, encoding and number of consumed characters as feeding it in one piece.", "quantifier": "for every input and every way of cutting it", "why_tests_cant": "all cut positions of all inputs", "anchors": ["include/textwolf/xmlhdrparser.hpp: putInput, parse, nextChar"]}
{"id": "C31", "title": "Header parser works for every character width", "statement": "Inserting up to three null bytes between the characters of a header (UTF-16, UCS-2, UCS-4 of any byte order) does not change the result and the encoding found.", "quantifier": "for every input and every such padding", "why_tests_cant": "unbounded inputs and paddings", "anchors": ["include/textwolf/xmlhdrparser.hpp: nextChar, parse"]}
{"id": "C32", "title": "Header parser finds the encoding", "statement": "For a well formed XML header the parser succeeds and encoding() is the value of the encoding attribute, or empty if there is none.", "quantifier": "for every list of attributes with arbitrary white space and quotes", "why_tests_cant": "unbounded attribute lists", "anchors": ["include/textwolf/xmlhdrparser.hpp: parse, encoding"]}
{"id": "C33", "title": "Static buffer stays in bounds and reports overflow", "statement": "A StaticBuffer contains the first capacity bytes pushed, overflow() tells exactly if something was dropped, and no operation accesses memory outside the buffer.", "quantifier": "for every capacity and every sequence of operations", "why_tests_cant": "all histories of operations, memory safety", "anchors": ["include/textwolf/staticbuffer.hpp: StaticBuffer"]}
{"id": "C34", "title": "Tag stack is a stack of strings", "statement": "The byte packed tag stack behaves as a stack of strings: top and pop refer to the last string pushed and not yet popped, with its exact bytes.", "quantifier": "for every sequence of push, top, pop, empty, clear and for arbitrary bytes and lengths", "why_tests_cant": "unbounded histories; byte packing with alignment and regrowth", "anchors": ["include/textwolf/xmltagstack.hpp: TagStack"]}
{"id": "C35", "title": "Exceptions name their cause", "statement": "what() of an exception thrown by the library is a non null string naming the cause of the exception.", "quantifier": "for every cause", "why_tests_cant": "a finite table nobody prints in full", "anchors": ["include/textwolf/exception.hpp: exception::what"]}
{"id": "C36", "title": "Path selection is exact", "statement": "For an automaton built from tag paths (with wildcards and descendant steps) with content, close tag and trigger outputs, each element of a document is reported for an expression exactly as often as the tag path of the element matches the expression.", "quantifier": "for every set of expressions and every document", "why_tests_cant": "unbounded documents and expression sets; state sharing between expressions", "anchors": ["include/textwolf/xmlpathselect.hpp: XMLPathSelect", "include/textwolf/xmlpathautomaton.hpp: XMLPathSelectAutomaton::defineNext, defineOutput"]}
{"id": "C37", "title": "Closing a tag restores the selection context", "statement": "After the subtree of an element has been processed the selector is in the same selection context as before the element was opened, for what is selected afterwards.", "quantifier": "for every well nested subtree", "why_tests_cant": "unbounded nesting", "anchors": ["include/textwolf/xmlpathselect.hpp: initProcessElement, closeProcessElement"]}
{"id": "C38", "title": "Expressions do not influence each other", "statement": "What is reported for one expression does not depend on the other expressions defined in the same automaton.", "quantifier": "for every pair of expression sets and every document", "why_tests_cant": "needs a comparison of two automata on all documents", "anchors": ["include/textwolf/xmlpathselect.hpp: fetch, match", "include/textwolf/xmlpathautomaton.hpp: Mask"]}
{"id": "C39", "title": "Index ranges select the elements with these indices", "statement": "An expression with an index range [start,end) reports exactly the matching elements with an index in the range.", "quantifier": "for every range and every number of matching elements", "why_tests_cant": "unbounded counters", "anchors": ["include/textwolf/xmlpathselect.hpp: match, produce", "include/textwolf/xmlpathautomaton.hpp: doRange, INDEX, TO, FROM, RANGE"]}
{"id": "C40", "title": "Iterating with prefix or postfix increment is equivalent", "statement": "Collecting the results of an element with itr++ or with ++itr leaves the selector in the same state.", "quantifier": "for every automaton and every document", "why_tests_cant": "object lifetime of temporaries", "anchors": ["include/textwolf/xmlpathselect.hpp: XMLPathSelect::iterator"]}
{"id": "C41", "title": "Path expressions in text form mean the same as the builder calls", "statement": "Adding an expression given as text to an automaton has the same effect as building it with the corresponding method calls.", "quantifier": "for every expression of the grammar", "why_tests_cant": "unbounded expressions", "anchors": ["include/textwolf/xmlpathautomatonparse.hpp: addExpression"]}
{"id": "C42", "title": "Every tag name can be used in a path expression", "statement": "Every sequence of tag characters (as accepted by the scanner) that does not contain a character reserved as operator is accepted as tag name in a path expression.", "quantifier": "for every name", "why_tests_cant": "characters are truncated to bytes in a library call", "anchors": ["include/textwolf/xmlpathautomatonparse.hpp: isIdentifierChar, parseIdentifier"]}
{"id": "C43", "title": "Token positions address the source", "statement": "For a token without references and line breaks, the bytes of the source starting at getTokenPosition() are the bytes of the item, if input and output character set are the same.", "quantifier": "for every input", "why_tests_cant": "unbounded inputs, buffered characters", "anchors": ["include/textwolf/xmlscanner.hpp: getTokenPosition, parseToken", "include/textwolf/textscanner.hpp: getPosition, copychar"]}
{"id": "C44", "title": "A copy of a scanner continues like the original", "statement": "A copy of a scanner delivers the same elements for the rest of the input as the original.", "quantifier": "for every state in which the copy is made", "why_tests_cant": "hidden state missing in a copy constructor only shows in some states", "anchors": ["include/textwolf/xmlscanner.hpp: XMLScanner copy constructor"]}
{"id": "C45", "title": "Iterator reports errors as text", "statement": "The error() method of an iterator element returns the description of the error if an error occurred.", "quantifier": "for every erroneous input", "why_tests_cant": "depends on stale buffers", "anchors": ["include/textwolf/xmlscanner.hpp: XMLScanner::iterator::Element::error"]}
{"id": "C46", "title": "Documents are scanned to their elements", "statement": "Scanning a well formed document (header, document type, tags with attributes, content with references, comments, processing instructions, CDATA sections) delivers exactly the elements of the document, in order, with the decoded and end of line normalised text of each one, and no error.", "quantifier": "for every document, every input and output character set, every partition of the text into chunks", "why_tests_cant": "documents are unbounded and any composition of items with any text has to be covered", "anchors": ["include/textwolf/xmlscanner.hpp: Statemachine, nextItem, parseToken"]}
{"id": "C47", "title": "Iterating visits the elements of the scanner", "statement": "A loop from begin() to end() with prefix increments visits exactly the elements nextItem() delivers before Exit, in order, and the content of each element is valid when it is visited.", "quantifier": "for every input, every kind of input iterator and every number of elements", "why_tests_cant": "unbounded inputs; pointer validity is not visible in a passing test", "anchors": ["include/textwolf/xmlscanner.hpp: XMLScanner::iterator, begin, end"]}
{"id": "C48", "title": "Postfix increment returns the previous element", "statement": "The iterator returned by a postfix increment of an XML scanner iterator refers to the element before the increment, with its content.", "quantifier": "for every input and every element", "why_tests_cant": "the content pointer dangles silently", "anchors": ["include/textwolf/xmlscanner.hpp: XMLScanner::iterator::operator++(int)"]}
{"id": "C49", "title": "Byte order marks are accepted by the header parser", "statement": "A document that starts with the byte order mark of its encoding is accepted by the XML header parser like the document without it.", "quantifier": "for every Unicode encoding and every document", "why_tests_cant": "test documents carry no byte order mark", "anchors": ["include/textwolf/xmlhdrparser.hpp: parse"]}
{"id": "C50", "title": "A copy of a header parser continues like the original", "statement": "A copy of an XML header parser delivers the same results, encoding and number of characters for the rest of the input as the original.", "quantifier": "for every state in which the copy is made", "why_tests_cant": "members missing in a copy constructor only show in some states", "anchors": ["include/textwolf/xmlhdrparser.hpp: XmlHdrParser copy constructor"]}
{"id": "C51", "title": "Header parser counts the characters consumed", "statement": "charsConsumed() is the number of characters of the header up to the place where the parser stopped.", "quantifier": "for every header", "why_tests_cant": "unbounded headers and white space", "anchors": ["include/textwolf/xmlhdrparser.hpp: nextChar, charsConsumed"]}
{"id": "C52", "title": "Selecting from a document given as text delivers what the paths address", "statement": "If a document is given as text in any chunks, the expressions as texts, and the elements delivered by the scanner are passed to the selector, then with every element each type is reported as often as its paths lead to the element in the tree of tags of the document.", "quantifier": "for every document, encoding, division into chunks, and list of expressions", "why_tests_cant": "tests scan a few documents with a few expressions; the claim joins scanner, expression parser, automaton and selector for all of them", "anchors": ["include/textwolf/xmlscanner.hpp: XMLScanner::nextItem", "include/textwolf/xmlpathautomatonparse.hpp: addExpression", "include/textwolf/xmlpathselect.hpp: iterator, initProcessElement, fetch"]}
{"id": "C53", "title": "A copy of a path selector continues like the original", "statement": "A copy of an XMLPathSelect reports for the rest of the document the same as the original.", "quantifier": "for every state in which the copy is made and every rest of the document", "why_tests_cant": "members missing in a copy constructor only show in some states and for some paths", "anchors": ["include/textwolf/xmlpathselect.hpp: XMLPathSelect copy constructor, Context"]}
{"id": "C54", "title": "Debug names are the names of the enumerators", "statement": "Every value of the enumerations of control characters, element types, scanner states, actions, header parser states and path operations has its own name in its table, the error texts are distinct, and the name of the operation found in a mask is the name of the operation the mask was made with.", "quantifier": "for every value of each enumeration", "why_tests_cant": "the tables are only read in debug output", "anchors": ["include/textwolf/char.hpp: ControlCharacterM::name", "include/textwolf/xmlscanner.hpp: getElementTypeName, getStateString, getActionString, getErrorString", "include/textwolf/xmlhdrparser.hpp: stateName", "include/textwolf/xmlpathautomaton.hpp: operationName, seekopName"]}
{"id": "C55", "title": "Scanning does not depend on the kind of source", "statement": "The XML scanner delivers the same elements with the same errors for a text whether it is read through SrcIterator, as a null terminated char*, through CStringIterator or through IStreamIterator.", "quantifier": "for every text of complete characters in every character set, every way the stream splits it, every entity map and every sequence of element type masks", "why_tests_cant": "the number of texts, splits and character sets is unbounded, and reading behind the terminator needs not to show", "anchors": ["include/textwolf/xmlscanner.hpp: XMLScanner(const InputIterator&)", "include/textwolf/textscanner.hpp: TextScanner", "include/textwolf/sourceiterator.hpp", "include/textwolf/istreamiterator.hpp", "include/textwolf/cstringiterator.hpp"]}
{"id": "C56", "title": "Reading a std::istream delivers the contents of the file", "statement": "IStreamIterator on a StdInputStream delivers the bytes of the file in order followed by null characters, with the number of bytes as position, and the XML scanner on it delivers the elements of the text in the file.", "quantifier": "for every file contents, every buffer size greater than 0 and every number of increments", "why_tests_cant": "the behaviour depends on how the file size relates to the buffer size, also when they divide evenly", "anchors": ["include/textwolf/istreamiterator.hpp: StdInputStream, IStreamIterator"]}
{"id": "C57", "title": "A copy of an IStreamIterator continues like the original", "statement": "A copy of an IStreamIterator delivers the same bytes as the original would.", "quantifier": "for every state in which the copy is made and every interleaving of the use of copy and original", "why_tests_cant": "the result depends on the positions of both in their buffers", "anchors": ["include/textwolf/istreamiterator.hpp: IStreamIterator copy constructor, fillbuf"]}
{"id": "C58", "title": "Errors of the input device are not taken for the end of the input", "statement": "When the device fails behind some bytes, the iterator throws FileReadError instead of delivering the end of the input.", "quantifier": "for every number of bytes before the error, every buffer size and every error number", "why_tests_cant": "device errors are hard to provoke at every position", "anchors": ["include/textwolf/istreamiterator.hpp: StdInputStream::read, IStreamIterator::fillbuf"]}
{"id": "C59", "title": "Every text has one reading", "statement": "For every text, well formed or not, the elements delivered, the first error reported and its code, or that the scanner does not end, are given by a fixed set of grammar rules; the rules cover every text.", "quantifier": "for every text of characters, every input and output character set, every partition into chunks", "why_tests_cant": "the malformed texts are unbounded and each rule has to hold for any text around it", "anchors": ["include/textwolf/xmlscanner.hpp: Statemachine, nextItem, parseToken, parseEntity, expectStr"]}
{"id": "C60", "title": "Equality of scanner iterators", "statement": "Equality of iterators is an equivalence relation; an iterator equals its copies.", "quantifier": "for every pair of iterators", "why_tests_cant": "only ends of iterations are compared in tests", "anchors": ["include/textwolf/xmlscanner.hpp: iterator::compare, operator==, operator!="]}
{"id": "C61", "title": "Several ranges of a path element are intersected", "statement": "Restricting a path element by several ranges selects the indices contained in all of them.", "quantifier": "for every element and every sequence of ranges", "why_tests_cant": "unbounded indices and combinations", "anchors": ["include/textwolf/xmlpathautomaton.hpp: PathElement::doRange, doCount, doStart, TO, FROM, RANGE, INDEX"]}
{"id": "C62", "title": "Characters read from arbitrary bytes", "statement": "For arbitrary bytes the sequence of characters read and the position after each are those of a fixed rule for every character set, with null characters behind the end; malformed and truncated sequences never lead out of the rule.", "quantifier": "for every character set, every sequence of bytes and every number of characters read", "why_tests_cant": "the byte sequences are unbounded and tests cover the encoded ones", "anchors": ["include/textwolf/textscanner.hpp: TextScanner", "include/textwolf/charset_utf8.hpp", "include/textwolf/charset_utf16.hpp", "include/textwolf/charset_ucs.hpp", "include/textwolf/charset_isolatin.hpp"]}
{"id": "C63", "title": "Header parser and scanner agree on the encoding", "statement": "For a document with an XML header the encoding found by the header parser is the value of the attribute encoding delivered by the scanner.", "quantifier": "for every document with a header, every character set and every partition into chunks", "why_tests_cant": "two independent parsers have to agree on unbounded inputs", "anchors": ["include/textwolf/xmlhdrparser.hpp: XmlHdrParser::parse", "include/textwolf/xmlscanner.hpp: nextItem"]}
{"id": "C64", "title": "The path selector is safe for every order of calls", "statement": "For an automaton built with the path element calls, every sequence of calls of the selector (elements passed in any order, results fetched or left, iterators closed, selectors copied, states listed) stays inside of the states of the automaton and the stacks of tokens, and every call ends.", "quantifier": "for every list of paths with readable names and without the largest int as upper index, and every finite sequence of calls of the selector", "why_tests_cant": "the sequences of calls are unbounded and tests only pass elements in the order of well formed documents", "anchors": ["include/textwolf/xmlpathselect.hpp: XMLPathSelect", "include/textwolf/xmlpathautomaton.hpp: PathElement"]}
{"id": "C65", "title": "Inspection of automaton and selector", "statement": "The result types listed for a state of an automaton are those of the paths that end with the step of the state and report with the type of element given, each as often as there are paths; listing ends and stays inside of the automaton. The states listed by a selector are states of the automaton that match the type of element given.", "quantifier": "for every list of paths with usable names and at most one range per step, every sequence of steps, every type of element and every sequence of calls of the selector", "why_tests_cant": "automata and sequences of calls are unbounded", "anchors": ["include/textwolf/xmlpathautomaton.hpp: getEmmitedTokens", "include/textwolf/xmlpathselect.hpp: getTokenTypeMatchingStates"]}
{"id": "C66", "title": "Memory of buffers, tag stacks and stream iterators", "statement": "Objects of the classes StaticBuffer, TagStack and IStreamIterator have memory of their own: it is changed by no other object, it is not accessed after it is freed, it is freed exactly once, memory of the caller is never freed, and after the destruction of all objects nothing is left allocated.", "quantifier": "for every sequence of constructions, copies, assignments, destructions and other calls on any number of objects", "why_tests_cant": "histories of several objects are unbounded, and leaks or accesses to freed memory show no wrong output", "anchors": ["include/textwolf/staticbuffer.hpp: StaticBuffer", "include/textwolf/xmltagstack.hpp: TagStack", "include/textwolf/istreamiterator.hpp: IStreamIterator"]}
{"id": "C67", "title": "Differences of iterators", "statement": "The difference of two iterators on the same source is the number of bytes between them.", "quantifier": "for every source and every pair of positions less than 2^31 apart", "why_tests_cant": "no test uses the operators; positions and partitions into blocks or chunks are unbounded", "anchors": ["include/textwolf/cstringiterator.hpp: operator-", "include/textwolf/sourceiterator.hpp: operator-", "include/textwolf/istreamiterator.hpp: operator-"]}
{"id": "C68", "title": "Path expressions of arbitrary bytes", "statement": "Adding path expressions ends with a result for every text, whether it is an expression or not and whether its bytes are valid in the character set or not, without accessing anything outside of the buffers of the parser and of the automaton; an error is reported with a position in the text; afterwards every sequence of calls on a selector of the automaton is safe; and a condition on a value holds for this value.", "quantifier": "for every list of texts of any bytes shorter than 2^32-16, every character set of the texts and every character set of the automaton", "why_tests_cant": "texts, broken encodings and sequences of calls are unbounded, and reading behind a buffer shows no wrong output", "anchors": ["include/textwolf/xmlpathautomatonparse.hpp: addExpression", "include/textwolf/xmlpathautomaton.hpp: doSelect", "include/textwolf/xmlscanner.hpp: parseStaticToken"]}
{"id": "C69", "title": "Printed documents are selected as they were printed", "statement": "A document printed with successful calls, scanned in any chunks and passed to a selector, is reported as its calls say: each expression is reported with exactly those elements printed which it selects, as often as it leads to them, whatever references the printer had to write for characters and however the expressions are written.", "quantifier": "for every list of printer calls of a document, every character set of the document, of the arguments, of the expressions and of the automaton, every list of expressions and every cut of the text into chunks", "why_tests_cant": "printer, scanner, parser of expressions and selector are four programs with unbounded inputs each; tests sample only a few combinations of documents, expressions and character sets", "anchors": ["include/textwolf/xmlprinter.hpp", "include/textwolf/xmlscanner.hpp: nextItem", "include/textwolf/xmlpathautomatonparse.hpp: addExpression", "include/textwolf/xmlpathselect.hpp"]}
{"id": "C70", "title": "What the printer has printed has arrived", "statement": "If the calls of the printer succeed, then the buffer or the stream printed to holds exactly the text printed.", "quantifier": "for every list of printer calls, every capacity of a StaticBuffer and every state (width, fill, adjustment, room of the device) of the stream behind an OstreamOutput", "why_tests_cant": "tests print into buffers that are large enough and into fresh string streams; failures need a full device, a small buffer or a stream used by others before", "anchors": ["include/textwolf/xmlprinter.hpp", "include/textwolf/ostreamoutput.hpp: push_back, append", "include/textwolf/staticbuffer.hpp"]}
{"id": "C71", "title": "The last error of the printer tells why a call failed", "statement": "A call of the printer that fails sets the last error to a message that says why, and after a call that succeeded there is no last error.", "quantifier": "for every list of printer calls", "why_tests_cant": "the error is state kept over unboundedly many calls; tests look at it after a single failing call at most", "anchors": ["include/textwolf/xmlprinter.hpp: lasterror, exitTagContext, printHeader, printDoctype, printAttribute, printCloseTag, reset"]}
{"id": "C72", "title": "A tag stack that could not get memory can be used further", "statement": "If malloc or realloc fails in a call of TagStack, then std::bad_alloc is thrown, the tags on the stack are unchanged and all later calls work as on a stack on which the failed call was not made.", "quantifier": "for every history of calls and every sequence of answers of malloc and realloc", "why_tests_cant": "allocation failures hardly happen in tests, and the damage shows only with a later push of a suitable size", "anchors": ["include/textwolf/xmltagstack.hpp: push, copy constructor", "include/textwolf/xmlprinter.hpp: printOpenTag"]}
{"id": "C73", "title": "The memory of the selector depends on the open tags only", "statement": "With the close of a tag the selector forgets everything it had stored since the tag was opened, so that its memory does not grow with the length of the document; at any time it holds at most one token for every state of the automaton and every open tag.", "quantifier": "for every automaton, every state of the selector between elements and every sequence of elements in which all tags opened are closed", "why_tests_cant": "leaks of tokens show only with long documents, and the number of tokens explodes only for deep documents with several searches in all descendants", "anchors": ["include/textwolf/xmlpathselect.hpp: expand, initProcessElement, closeProcessElement, fetch"]}
{"id": "C74", "title": "The example programs print what the documents contain", "statement": "examples/XMLScanner.cpp prints a line with name and value of each element of the text and ends with an exception at the first error that describes it; examples/XMLScanner_chunkwise.cpp prints the same for the text in chunks, however it is cut; examples/XMLPathSelect.cpp prints the attributes /address/@name with 1 and /address/@street with 2; examples/TextScanner.cpp prints the characters of the text as hexadecimal numbers.", "quantifier": "for every text of bytes with less than 2^32-16 bytes that is read to its end or to an error, every way to cut it into chunks, every fuel that is large enough", "why_tests_cant": "the examples are run with no text at all by the build, and a test runs them with some texts and some ways to cut them", "anchors": ["examples/TextScanner.cpp", "examples/XMLScanner.cpp", "examples/XMLScanner_chunkwise.cpp", "examples/XMLPathSelect.cpp", "include/textwolf/xmlscanner.hpp: iterator"]}
{"id": "C75", "title": "A header parser can be used again", "statement": "No order of calls of putSource, parse and clear of XmlHdrParser is undefined; what was done before clear has no influence on what comes after it, be it an error or an exception; after an exception each call of parse throws it again until clear; the last error is the one of the last call of parse.", "quantifier": "for every sequence of calls and all data", "why_tests_cant": "the sequences of calls and the data are unbounded; the tests use each parser once", "anchors": ["include/textwolf/xmlhdrparser.hpp: clear, putSource, parse, lasterror, encoding, charsConsumed, consumedData"]}
{"id": "C76", "title": "A SrcIterator tells where it is in its chunk", "statement": "After any history of chunks and increments the access to a SrcIterator delivers the byte of the chunk at the place reached, position() the bytes of all chunks before plus that place, getPosition() that place and endOfChunk() if the end of the chunk is reached; the loop over a chunk that asks endOfChunk() before each access reads the chunk and is never interrupted.", "quantifier": "for every history of chunks, every chunk and every number of increments", "why_tests_cant": "endOfChunk is used by no test, chunks and histories are unbounded", "anchors": ["include/textwolf/sourceiterator.hpp: SrcIterator"]}
{"id": "C77", "title": "Names and values given to path elements are compared as they are given", "statement": "A name or value given to an element of a path (selectTag, selectAttribute, ifAttribute) matches the names and values of the document that are equal to it.", "quantifier": "for every name or value in a character set that is read byte by byte", "why_tests_cant": "the names and values are unbounded; the tests use only names of letters and digits", "anchors": ["include/textwolf/xmlscanner.hpp: parseStaticToken, parseStaticNumericEntityValue", "include/textwolf/xmlpathautomatonparse.hpp", "include/textwolf/xmlpathautomaton.hpp: PathElement"]}
{"id": "C78", "title": "An interrupted call can be repeated with another mask", "statement": "A call of nextItem interrupted at the end of a chunk can be repeated with a mask different from the one before: nothing is undefined, and the items of later calls do not depend on what was wanted before the interrupt.", "quantifier": "for every text, every chunking and all masks of the attempts of each call", "why_tests_cant": "the tests repeat each interrupted call with the same mask; texts, cuts and masks are unbounded", "anchors": ["include/textwolf/xmlscanner.hpp: nextItem, parseToken, skipToken, expectStr, TokState"]}
{"id": "C79", "title": "The pointer of a SrcIterator stays in its memory", "statement": "Scanning a chunk with a SrcIterator does not move its pointer further than one position behind the last byte of the chunk (further increments are undefined for memory that ends there), and scanning does not depend on the memory behind.", "quantifier": "for every input character set, every text, all masks and any number of calls", "why_tests_cant": "the increment beyond the end has no visible effect on common machines; texts and masks are unbounded", "anchors": ["include/textwolf/sourceiterator.hpp: SrcIterator::operator++, operator*", "include/textwolf/charset_utf8.hpp: fetchbyte, skip", "include/textwolf/textscanner.hpp"]}
{"id": "C80", "title": "Iterators of clients", "statement": "Any iterator that delivers the bytes of a text and then null characters, at every access and after every increment, makes the text scanner deliver the same characters and the XML scanner the same elements as a SrcIterator over the text.", "quantifier": "for every iterator that meets the requirements, every character set, every text of bytes, all masks and numbers of calls, all operations of the text scanner", "why_tests_cant": "the iterators are written by clients and are not known; the tests have two of them", "anchors": ["include/textwolf/textscanner.hpp: TextScanner", "include/textwolf/xmlscanner.hpp: XMLScanner", "tests/test_TextReader.cpp: EnumCharIterator"]}
{"id": "C81", "title": "The test of the text scanner passes for the right reason", "statement": "tests/test_TextReader.cpp passes for the eight character sets of the program, and for any enumeration of representable characters and any character set; it reports a failure if a character is not read as expected.", "quantifier": "for every character set, every function that enumerates representable characters different from null, every start and number of characters", "why_tests_cant": "the test has one enumeration of characters and cannot tell if it would notice a failure", "anchors": ["tests/test_TextReader.cpp", "include/textwolf/textscanner.hpp", "include/textwolf/charset_*.hpp: print, value, ascii"]}
{"id": "C82", "title": "The test of the XML scanner prints positions and elements", "statement": "tests/test_XMLScanner.cpp prints the text with ten characters in a line, and for each element the position of its token, the number of bytes read since, its type and its content, and reads no memory but its text.", "quantifier": "for every text without null characters, right or wrong", "why_tests_cant": "the program has one text; reading behind a string literal is not visible", "anchors": ["tests/test_XMLScanner.cpp", "include/textwolf/xmlscanner.hpp: getTokenPosition, getPosition, iterator"]}
{"id": "C83", "title": "The file iterator of the test program", "statement": "The iterator in tests/readStdinIterator.cpp delivers the bytes of a file of any length and then null characters; the program reads the bytes before the first null character or the end of the file.", "quantifier": "for files of any length and content and any number of increments", "why_tests_cant": "files are unbounded; increments behind the end of the file are not in the test, and reading the rest of the buffer again is not visible without them", "anchors": ["tests/readStdinIterator.cpp: Input::getchar, Input::iterator, main"]}
{"id": "C84", "title": "The text printed for an automaton", "statement": "XMLPathSelectAutomaton::tostring tells for each state the next state, the linked state, the search in all descendants, the operation, the name and the type, and nothing that is not in the automaton.", "quantifier": "for every automaton, with any number of states, names and types, built by any paths", "why_tests_cant": "the test prints one automaton and compares the text with nothing; an address printed differs from run to run", "anchors": ["include/textwolf/xmlpathautomaton.hpp: State::tostring, XMLPathSelectAutomaton::tostring, lines 318-361"]}
{"id": "C85", "title": "The memory of automata", "statement": "Several automata copied, assigned, extended and destroyed in any order behave as values; the keys and names allocated are freed once.", "quantifier": "for every history of calls on any number of automata, for any growth of the vectors", "why_tests_cant": "histories are unbounded; what happens depends on the capacity of the vectors, and memory freed twice may pass unnoticed", "anchors": ["include/textwolf/xmlpathautomaton.hpp: State, defineNext, defineOutput"]}
{"id": "C86", "title": "The test of the path selection", "statement": "tests/test_XMLPathSelect.cpp prints the automaton and a line for each element of its text with the numbers it is selected with, and reports a failure if there is an error in the text.", "quantifier": "for every set of paths and every text without null characters", "why_tests_cant": "the program has one text without errors, its output is not compared with anything", "anchors": ["tests/test_XMLPathSelect.cpp", "include/textwolf/xmlpathselect.hpp: iterator", "include/textwolf/xmlpathautomaton.hpp: tostring, PathElement"]}
{"id": "C87", "title": "Equality of XML iterators", "statement": "Equality of the iterators of the XML scanner is an equivalence, as the standard library demands of input iterators: an iterator compares equal to itself and to its copies.", "quantifier": "for all iterators", "why_tests_cant": "programs compare iterators with the end only", "anchors": ["include/textwolf/xmlscanner.hpp:1270-1277 compare", "include/textwolf/xmlscanner.hpp:1334-1339"]}
{"id": "C88", "title": "Loops with valid()", "statement": "A loop that goes on while the element visited is valid() visits exactly the elements before the end of the text or the first error, can read the content of each when it visits it, and finds the error with error() afterwards if there was one.", "quantifier": "for every source, character set, configuration and text", "why_tests_cant": "the test programs and examples do not call valid()", "anchors": ["include/textwolf/xmlscanner.hpp:1217 valid", "include/textwolf/xmlscanner.hpp:1220 error", "include/textwolf/xmlscanner.hpp:1256-1265 skip"]}
{"id": "C89", "title": "Attributes of all descendants", "statement": "An expression that looks for an attribute in all descendants of an element reports exactly the attributes of this name in the descendants, except of those behind a content that another expression looks at; the expressions without such steps in the same automaton report exactly what they select.", "quantifier": "for every set of expressions and every document", "why_tests_cant": "depends on the combination of expressions and on the order of contents and attributes in the document", "anchors": ["include/textwolf/xmlpathselect.hpp:185-244 match", "include/textwolf/xmlpathselect.hpp:248-289 fetch"]}
{"id": "C90", "title": "What a path with several ranges reports", "statement": "A path with several range calls reports exactly the elements that each of the calls alone makes it report; a lower and an upper bound given with two calls report the same as one call with both; with a range with the end -1 the elements before its start are not reported.", "quantifier": "for every path with any number of range calls and every document", "why_tests_cant": "unbounded sequences of calls with arbitrary numbers; the tests set one range at most", "anchors": ["include/textwolf/xmlpathautomaton.hpp:616-651 doRange", "include/textwolf/xmlpathautomaton.hpp:718-731 TO, FROM, RANGE, INDEX"]}
{"id": "C91", "title": "An automaton that could not get memory can be used further", "statement": "When an allocation fails while a path is defined, an exception is thrown, and the automaton remains usable: the paths defined before and after it select exactly what they would, the path that failed can be tried again, and nothing outside of the states is read.", "quantifier": "for every list of paths, every sequence of failing allocations and every document", "why_tests_cant": "which allocation of which call fails is unbounded; the tests do not let any allocation fail", "anchors": ["include/textwolf/xmlpathautomaton.hpp:442-531 defineNext, defineOutput", "include/textwolf/xmlpathautomaton.hpp:254-294 State::defineKey, defineNext"]}
{"id": "C92", "title": "An automaton that could not get memory loses none", "statement": "Whichever allocations fail while an automaton is built, no block is freed twice or used after it was freed, the calls answer as if each call either gets its memory or fails at one of the few places where the code allocates, and after the destruction of the automaton all memory has been freed.", "quantifier": "for every history of calls, every sequence of failing allocations and every growth of the vector", "why_tests_cant": "histories and failing allocations are unbounded; the tests let no allocation fail and cannot see a leak", "anchors": ["include/textwolf/xmlpathautomaton.hpp:218-309 State", "include/textwolf/xmlpathautomaton.hpp:442-531 defineNext, defineOutput"]}
{"id": "C93", "title": "A path may be defined while a selector is in use", "statement": "An automaton may get further paths while selectors made of it are in use: no access is out of bounds and every element has finitely many results. A path with a first step of its own has no effect on the selectors made before. A path that begins as one defined before is selected by a selector not used yet as if it had been defined before.", "quantifier": "for all sets of paths, all histories of definitions and elements, and every state of the selector", "why_tests_cant": "histories of definitions and elements are unbounded; the tests define all paths before a selector is created", "anchors": ["include/textwolf/xmlpathselect.hpp:88-111 expand", "include/textwolf/xmlpathselect.hpp:327-331 constructor", "include/textwolf/xmlpathautomaton.hpp:442-531 defineNext, defineOutput"]}
{"id": "C94", "title": "Iterators of a path selection can be copied, assigned and destroyed", "statement": "The iterators returned by push may be copied, assigned, compared, incremented and destroyed in any order: nothing is accessed out of bounds, the iterators of an element read its results together, and how many iterators there are makes no difference to what is selected.", "quantifier": "for all sets of paths, all states of the selector and all sequences of calls on any number of iterators", "why_tests_cant": "sequences of calls are unbounded; the tests use one iterator for each element and never copy or assign it", "anchors": ["include/textwolf/xmlpathselect.hpp:339-474 iterator, push, end", "include/textwolf/xmlpathselect.hpp:138-150 closeProcessElement"]}
{"id": "C95", "title": "A path selector whose stacks cannot be enlarged", "statement": "Whichever allocations of the stacks of a path selector fail, every call returns or throws without undefined behaviour, also the calls made after one that has thrown; what the calls deliver until the first failure is what they deliver when there is memory enough; after a failure the selection can be continued.", "quantifier": "for all sets of paths, all sequences of calls and all choices of the allocations that fail", "why_tests_cant": "allocations do not fail in the tests, and every allocation of every sequence of calls can be the one that fails", "anchors": ["include/textwolf/xmlpathselect.hpp:88-111 expand", "include/textwolf/xmlpathselect.hpp:117-136 initProcessElement", "include/textwolf/xmlpathselect.hpp:155-290 produce, match, fetch", "include/textwolf/xmlpathselect.hpp:300-322 getTokenTypeMatchingStates"]}
{"id": "C96", "title": "Copies of automata that do not get their memory", "statement": "However automata are created, extended, copied and destroyed, and whichever allocations fail in it: each automaton has the states of the calls on it alone, a copy that does not get its memory throws and leaves the automaton copied unchanged, no memory is deleted twice or used after it is deleted, and at most one block is lost for each call that failed. An automaton assigned to an automaton without states or without place for them is a copy, or the assignment throws and changes nothing.", "quantifier": "for all histories of calls on any number of automata, all choices of the allocations that fail and all growth of the vectors", "why_tests_cant": "allocations do not fail in the tests, and what is left by a failing copy is not visible in what is selected", "anchors": ["include/textwolf/xmlpathautomaton.hpp:219-279 State, its copy constructor, destructor and defineKey", "include/textwolf/xmlpathautomaton.hpp:349 states", "include/textwolf/xmlpathautomaton.hpp:442-531 defineNext, defineOutput"]}
{"id": "C97", "title": "Printing to a buffer that throws", "statement": "If the buffer throws in a push_back, the bytes before the refused one have been appended, and the printer is as before the call, except that the end of a start tag or the whole close tag of the root, once appended, is remembered. Whatever is refused and whatever calls follow, the behaviour is defined, and the printer is the one of the calls that returned and of the ends of tags so remembered. Set back to its size before the call that threw, the buffer gets what it would have got when the call is repeated, but for these exceptions.", "quantifier": "for all sequences of calls, all character sets and all choices of the push_back that throw", "why_tests_cant": "the buffers in the tests never throw, and each of the bytes printed is a place to throw at", "anchors": ["include/textwolf/xmlprinter.hpp:57-356 XMLPrinter, all methods that print"]}
{"id": "C98", "title": "Scanning into a buffer that throws", "statement": "A call of nextItem that returns although the output buffer may throw does what it does with a buffer that does not. If each call that throws is repeated, all elements are delivered as with a buffer that does not throw, with the same types, errors and positions; only in their texts, beginnings of what was being printed are inserted, or an end of ?xml is missing. If all characters are printed as one byte and the text has no ampersand and no question mark then the texts are the same as well.", "quantifier": "for all texts, character sets, masks and choices of the push_back that throw", "why_tests_cant": "the buffers in the tests never throw, and each byte appended is a place to throw at, with each state of the token parser", "anchors": ["include/textwolf/xmlscanner.hpp:493-799 push, copychar, entities, parseToken", "include/textwolf/xmlscanner.hpp:1097-1194 nextItem"]}
{"id": "C99", "title": "Buffers, stacks and iterators when memory is short", "statement": "If malloc, calloc or realloc deliver no memory to a StaticBuffer, a TagStack or an IStreamIterator, the call throws, all objects have the values they had before, no memory is lost and nothing is freed twice; all further calls, except for a push on a stack on which a push has failed, do what they do on these values.", "quantifier": "for all histories of creations, copies, destructions and operations on any number of objects, and all answers of the allocations", "why_tests_cant": "the tests never run out of memory; the answers of the allocations and the sharing of memory between objects are not visible in their results", "anchors": ["include/textwolf/staticbuffer.hpp:28-60", "include/textwolf/xmltagstack.hpp:28-68", "include/textwolf/istreamiterator.hpp:100-123"]}
{"id": "C100", "title": "A read of the stream that fails for a time", "statement": "If a read of the stream of an IStreamIterator fails for a time and the caller makes the call again that threw FileReadError, the iterator and an XML scanner on it deliver the same as if the read had not failed.", "quantifier": "for all sequences of reads that deliver something or fail, all numbers of increments, all character sets, all texts and all sequences of element masks", "why_tests_cant": "the streams of the tests never fail; the effect depends on the byte at which a read fails", "anchors": ["include/textwolf/istreamiterator.hpp:125-164", "include/textwolf/textscanner.hpp:152-242", "include/textwolf/charset_utf8.hpp:76-130", "include/textwolf/xmlscanner.hpp:1097-1194"]}
