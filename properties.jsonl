{"id": "C01", "title": "Parsing any bytes is memory safe", "statement": "flo_html_createDom never reads outside the given string and never builds a string of negative length, whatever the bytes are. (As stated this is false: an unclosed quote as the very last byte of the input inside a tag builds a string of length -1. The corrected claim: it holds for every input whose last byte is not a quote character.)", "quantifier": "every byte string given as HTML", "why_tests_cant": "an out-of-bounds read is silent for most inputs and depends on the exact last bytes; the input space is infinite; a test suite samples it", "anchors": ["src/parser.c:flo_html_parse", "src/parser.c:parseProp", "include/flo/html-parser/util/parse.h", "src/dom/dom.c:flo_html_createDom"]}
{"id": "C02", "title": "Parsing any bytes terminates", "statement": "flo_html_createDom terminates on every input: it either returns a DOM, returns NULL, or leaves through the arena's longjmp because a 16-bit limit is hit.", "quantifier": "every byte string given as HTML", "why_tests_cant": "non-termination on one malformed input cannot be excluded by sampling", "anchors": ["src/parser.c:flo_html_parse", "src/parser.c:parseTextNode", "src/parser.c:parseDocumentNode"]}
{"id": "C03", "title": "The parsed DOM is a tree in document order", "statement": "After flo_html_createDom succeeds, walking the DOM from the root with flo_html_traverseDom visits every created node exactly once, in the order of their node ids 2,3,...,n-1, and then returns 0; first-child, next-sibling and parent answers are mutually consistent.", "quantifier": "every byte string given as HTML", "why_tests_cant": "a link error may show only for particular nestings", "anchors": ["src/parser.c:updateReferences", "src/parser.c:flo_html_parse", "src/dom/traversal.c"]}
{"id": "C04", "title": "Well-formed HTML parses to the tree it denotes", "statement": "For every document written in a well-formed subset (nested elements with boolean and key=\"value\" attributes, void and self-closing elements, comments, white space and text) flo_html_createDom succeeds and the DOM read back through the public API (tag, attributes in order, text, children in order) is exactly the denoted forest, provided the depth, node and string limits are not exceeded.", "quantifier": "every well-formed document (any size and depth up to the limits)", "why_tests_cant": "the grammar is recursive with unbounded documents", "anchors": ["src/parser.c:flo_html_parse", "src/parser.c:parseDocumentNode", "src/parser.c:parseTextNode", "src/parser.c:parseProp"]}
{"id": "C05", "title": "Text is white-space normalised", "statement": "No text node produced by flo_html_createDom contains a tab, newline or carriage return, two adjacent spaces, or a trailing space.", "quantifier": "every byte string given as HTML", "why_tests_cant": "depends on arbitrary mixes of blanks, comments and stray '<'", "anchors": ["src/parser.c:parseTextNode", "src/parser.c:textNodeContinue"]}
{"id": "C06", "title": "Nesting limit", "statement": "flo_html_createDom accepts n nested open elements exactly when n <= 255, otherwise it returns NULL without writing past the fixed-size stack; at no time does the open-element stack hold more than 256 entries.", "quantifier": "every nesting depth n and every input", "why_tests_cant": "the boundary needs a proof for all inputs that the stack write is guarded", "anchors": ["src/parser.c:flo_html_parse", "include/flo/html-parser/parser.h:FLO_HTML_MAX_NODE_DEPTH"]}
{"id": "C07", "title": "Node ids are unique and bounded", "statement": "Every node id handed out is the index of the node, is fresh, and never exceeds 65534; when 65535 nodes exist the next creation leaves through longjmp instead of wrapping around.", "quantifier": "every input and every history of API calls", "why_tests_cant": "65535-node histories are impractical to enumerate", "anchors": ["src/dom/dom-util.c:flo_html_createNode"]}
{"id": "C08", "title": "Void and declaration elements are leaves", "statement": "After flo_html_createDom, an element whose tag is one of the thirteen void tags or begins with '!' has no children.", "quantifier": "every byte string given as HTML", "why_tests_cant": "the input space is infinite; a test suite samples it", "anchors": ["src/parser.c:isVoidElement", "src/parser.c:parseDocumentNode"]}
{"id": "C09", "title": "Script and style content is opaque", "statement": "The content of <script> and <style> is kept as one text node up to the matching end tag. (False: '<' inside a script starts an element; proved by counterexample together with the exact condition under which it holds.)", "quantifier": "every script/style content", "why_tests_cant": "the special case in the code is dead for every input, tests only sample", "anchors": ["src/parser.c:parseTextNode"]}
{"id": "C10", "title": "Stray end tags at the top level are ignored", "statement": "An end tag </x> that appears when no element is open adds no node and does not change what is parsed after it.", "quantifier": "every name x and every surrounding well-formed document", "why_tests_cant": "the input space is infinite; a test suite samples it", "anchors": ["src/parser.c:isEndDocumentTag", "src/parser.c:flo_html_parse"]}
{"id": "C11", "title": "End tags close only their own element", "statement": "An end tag closes the innermost open element only if the names are equal. (False: the comparison is a prefix comparison, so </abbr> closes <a>.)", "quantifier": "every pair of tag names", "why_tests_cant": "the input space is infinite; a test suite samples it", "anchors": ["src/parser.c:isEndDocumentTag"]}
{"id": "C12", "title": "Interning is a bijection", "statement": "For each of the four string tables (tags, boolean attributes, keys, values), in every reachable DOM: looking a string up gives a non-zero id exactly if the string was seen, the registry at that id is that string, ids are dense from 1, and two different strings have different ids.", "quantifier": "every history of parses and edits", "why_tests_cant": "depends on hash collisions between arbitrary strings", "anchors": ["src/dom/util/string-auto-uint16-map.c", "src/dom/modification.c:getCreatedPropIDFromString", "src/dom/modification.c:flo_html_setTagOnDocumentNode"]}
{"id": "C13", "title": "Interned ids are stable", "statement": "Once a string has an id in a DOM, no later operation changes that id or the string stored under it.", "quantifier": "every history of operations", "why_tests_cant": "histories are unbounded", "anchors": ["src/dom/util/string-auto-uint16-map.c"]}
{"id": "C14", "title": "The string map stays inside its child arrays", "statement": "Lookups and insertions in the interning trie index the four-element child array within bounds. (False: the index is hash<<62 instead of hash>>62; characterised exactly, and shown to degenerate to a correct linked list under flat 64-bit addressing.)", "quantifier": "every sequence of keys", "why_tests_cant": "needs a hash argument over all keys", "anchors": ["src/dom/util/string-auto-uint16-map.c:flo_trie_insertStringAutoUint16Map"]}
{"id": "C15", "title": "Attribute queries answer about the current attributes", "statement": "flo_html_hasBoolProp / hasPropKey / hasPropValue / hasProperty return true exactly if the node currently has such a boolean attribute / an attribute with this key / with this value / with this key and value.", "quantifier": "every reachable DOM, node and string", "why_tests_cant": "the answer goes through three tables whose contents depend on the whole history", "anchors": ["src/dom/reading/reading.c"]}
{"id": "C16", "title": "getValue returns the first matching value", "statement": "flo_html_getValue returns the value of the first attribute of the node with that key, or the empty string if there is none.", "quantifier": "every reachable DOM, node and key", "why_tests_cant": "the input space is infinite; a test suite samples it", "anchors": ["src/dom/reading/reading.c:flo_html_getValue"]}
{"id": "C17", "title": "setPropertyValue changes exactly one attribute", "statement": "flo_html_setPropertyValue succeeds exactly if the node has the key; then getValue of that key is the new value and no other attribute of any node changes; on failure nothing observable changes.", "quantifier": "every reachable DOM, node, key and value", "why_tests_cant": "the input space is infinite; a test suite samples it", "anchors": ["src/dom/modification.c:flo_html_setPropertyValue"]}
{"id": "C18", "title": "Removing an attribute removes its first occurrence only", "statement": "flo_html_removeProperty / flo_html_removeBooleanProperty delete the first matching attribute of the node, keep all others in order, and change nothing if there is none.", "quantifier": "every reachable DOM, node and name", "why_tests_cant": "the input space is infinite; a test suite samples it", "anchors": ["src/dom/deletion.c:flo_html_removeProperty", "src/dom/deletion.c:flo_html_removeBooleanProperty"]}
{"id": "C19", "title": "Adding an attribute appends it", "statement": "flo_html_addPropertyToNode / flo_html_addBooleanPropertyToNode add one attribute at the end of the node's attribute list and leave other nodes' attributes unchanged.", "quantifier": "every reachable DOM, node and strings", "why_tests_cant": "the input space is infinite; a test suite samples it", "anchors": ["src/dom/modification.c:flo_html_addPropertyToNode", "src/dom/modification.c:flo_html_addBooleanPropertyToNode"]}
{"id": "C20", "title": "Sibling and parent navigation is consistent", "statement": "In every reachable DOM: getNext and getPrevious are inverse on siblings, siblings have the same parent, getFirstChild(p) has no previous sibling and parent p, getLastNext is the last sibling, and parent chains are finite.", "quantifier": "every history of API calls", "why_tests_cant": "histories are unbounded", "anchors": ["src/dom/traversal.c"]}
{"id": "C21", "title": "traverseDom is a finite pre-order walk", "statement": "Starting at the root, iterating flo_html_traverseDom visits exactly the nodes of the tree, once each, in pre-order, and then returns 0.", "quantifier": "every reachable DOM", "why_tests_cant": "the input space is infinite; a test suite samples it", "anchors": ["src/dom/traversal.c:flo_html_traverseDom"]}
{"id": "C22", "title": "traverseNode visits exactly the subtree", "statement": "Iterating flo_html_traverseNode from n with scope n visits exactly the proper descendants of n in pre-order. (False for a childless n, whose next sibling is visited; true whenever n has a child or no next sibling.)", "quantifier": "every reachable DOM and node", "why_tests_cant": "the input space is infinite; a test suite samples it", "anchors": ["src/dom/traversal.c:flo_html_traverseNode"]}
{"id": "C23", "title": "getTextContent collects the subtree text", "statement": "flo_html_getTextContent(n) is the list of the texts of the text descendants of n in document order. (Same exception as traverseNode: an empty element leaks the text after it.)", "quantifier": "every reachable DOM and node", "why_tests_cant": "the input space is infinite; a test suite samples it", "anchors": ["src/dom/reading/reading.c:flo_html_getTextContent"]}
{"id": "C24", "title": "removeNode removes one subtree", "statement": "flo_html_removeNode(n) terminates without touching a null pointer, removes n from its parent's child list, keeps the order of the siblings, empties the removed subtree and leaves the children of every node outside the subtree unchanged.", "quantifier": "every reachable DOM and node other than the root", "why_tests_cant": "position (first/middle/last/only child) and depth are arbitrary", "anchors": ["src/dom/deletion.c:flo_html_removeNode"]}
{"id": "C25", "title": "removeChildren and setTextContent", "statement": "flo_html_removeChildren(n) leaves n without children; flo_html_setTextContent(n,t) leaves exactly one child, a text node with text t; other nodes outside the subtree are unchanged.", "quantifier": "every reachable DOM, node and text", "why_tests_cant": "the input space is infinite; a test suite samples it", "anchors": ["src/dom/deletion.c:flo_html_removeChildren", "src/dom/modification.c:flo_html_setTextContent"]}
{"id": "C26", "title": "appendDocumentNode adds a last child", "statement": "flo_html_appendDocumentNode(p,e) returns a fresh node that becomes the last child of p with the given tag and attributes; all other child lists are unchanged.", "quantifier": "every reachable DOM, parent and element", "why_tests_cant": "the input space is infinite; a test suite samples it", "anchors": ["src/dom/appendix.c:flo_html_appendDocumentNode"]}
{"id": "C27", "title": "appendTextNode appends or merges", "statement": "flo_html_appendTextNode(p,t): if the last child of p is a text node its text becomes old+' '+t and it is returned, otherwise a fresh text node becomes the last child; nothing else changes in any child list.", "quantifier": "every reachable DOM, parent and text", "why_tests_cant": "the input space is infinite; a test suite samples it", "anchors": ["src/dom/appendix.c:flo_html_appendTextNode", "src/dom/dom-util.c:flo_html_tryMerge"]}
{"id": "C28", "title": "appendHTMLFromString appends the fragment", "statement": "flo_html_appendHTMLFromString(p,h) appends the top-level nodes of the fragment h (when it has at least one node) after the children of p, merging a leading text node into a trailing text child; other child lists are unchanged.", "quantifier": "every reachable DOM, parent and fragment", "why_tests_cant": "the input space is infinite; a test suite samples it", "anchors": ["src/dom/appendix.c:flo_html_appendHTMLFromString", "src/parser.c:flo_html_parseExtra"]}
{"id": "C29", "title": "prependDocumentNode and prependTextNode", "statement": "prependDocumentNode adds a fresh first child; prependTextNode merges t+' '+old into a first text child or adds a fresh first text child; nothing else changes.", "quantifier": "every reachable DOM, parent and payload", "why_tests_cant": "the input space is infinite; a test suite samples it", "anchors": ["src/dom/prependix.c"]}
{"id": "C30", "title": "prependHTMLFromString prepends the fragment", "statement": "flo_html_prependHTMLFromString(p,h) puts the fragment's top-level nodes before the children of p, merging a trailing text node into a leading text child.", "quantifier": "every reachable DOM, parent and non-empty fragment", "why_tests_cant": "the input space is infinite; a test suite samples it", "anchors": ["src/dom/prependix.c:flo_html_prependHTMLFromString"]}
{"id": "C31", "title": "replaceWithDocumentNode substitutes in place", "statement": "flo_html_replaceWithDocumentNode(n,e) puts the new element at the position of n; siblings before and after are unchanged.", "quantifier": "every reachable DOM and node", "why_tests_cant": "the input space is infinite; a test suite samples it", "anchors": ["src/dom/replacement.c:flo_html_replaceWithDocumentNode"]}
{"id": "C32", "title": "replaceWithTextNode substitutes or merges", "statement": "flo_html_replaceWithTextNode(n,t) puts the text at the position of n, merging it into a text neighbour if there is one.", "quantifier": "every reachable DOM, node and text", "why_tests_cant": "the input space is infinite; a test suite samples it", "anchors": ["src/dom/replacement.c:flo_html_replaceWithTextNode"]}
{"id": "C33", "title": "replaceWithHTMLFromString substitutes the fragment", "statement": "flo_html_replaceWithHTMLFromString(n,h) puts the fragment's top-level nodes at the position of n, merging text at both ends, and does not touch a null pointer. (The last part is false: a single text node merged only with the next sibling dereferences NULL.)", "quantifier": "every reachable DOM, node and non-empty fragment", "why_tests_cant": "the input space is infinite; a test suite samples it", "anchors": ["src/dom/replacement.c:flo_html_replaceWithHTMLFromString"]}
{"id": "C34", "title": "A failed fragment insertion leaves the document unchanged", "statement": "If the fragment is rejected (nesting too deep) the append/prepend/replace call returns 0 and every child list, attribute and text reachable before is unchanged.", "quantifier": "every reachable DOM and every rejected fragment", "why_tests_cant": "the rejection can happen at any point of the fragment", "anchors": ["src/parser.c:flo_html_parse", "src/dom/appendix.c", "src/dom/prependix.c", "src/dom/replacement.c"]}
{"id": "C35", "title": "Fragments without nodes are harmless", "statement": "Appending an empty, blank or comment-only fragment changes nothing and is memory safe. (False: a dangling node id is linked, or memory past the node array is read.)", "quantifier": "every blank fragment and reachable DOM", "why_tests_cant": "the input space is infinite; a test suite samples it", "anchors": ["src/dom/appendix.c:flo_html_appendHTMLFromString"]}
{"id": "C36", "title": "Returned node ids are live", "statement": "The id returned by an editing call denotes a node that is in the document. (False for prependTextNode and replaceWithTextNode when they merge: they return the id of a removed node.)", "quantifier": "every editing call on a reachable DOM", "why_tests_cant": "the input space is infinite; a test suite samples it", "anchors": ["src/dom/prependix.c:flo_html_prependTextNode", "src/dom/replacement.c:flo_html_replaceWithTextNode"]}
{"id": "C37", "title": "Every API history keeps the DOM a tree", "statement": "Starting from any successful createDom, any sequence of edits with valid arguments keeps all navigation tables consistent: each listed node has one parent, sibling chains are acyclic and complete, and parent ids are smaller than child ids.", "quantifier": "every finite history of API calls", "why_tests_cant": "histories are unbounded", "anchors": ["src/dom/appendix.c", "src/dom/prependix.c", "src/dom/replacement.c", "src/dom/deletion.c", "src/dom/modification.c"]}
{"id": "C38", "title": "16-bit search counters do not loop forever", "statement": "The uint16_t loop counters in getFirstChildNode/getNextNode/getPreviousNode always terminate and find the entry, because the tables never have more entries than there are nodes, whatever the history; with a larger table and no match the loop would diverge.", "quantifier": "every history of valid calls; every table length", "why_tests_cant": "a table of 65536 entries is beyond tests", "anchors": ["src/dom/traversal.c:flo_html_getNextNode"]}
{"id": "C39", "title": "The id hash set is a set", "statement": "The open-addressing uint16 set used by queries behaves like a mathematical set of non-zero ids: after any insertions membership is exact, no element is lost by growing, every probe terminates, and enumeration lists each element once.", "quantifier": "every sequence of inserted ids", "why_tests_cant": "probe sequences depend on hash collisions of arbitrary ids", "anchors": ["src/dom/query/msi-uint16.c", "util/src/hash/msi/uint16-set.c", "util/include/flo/util/hash/msi/common.h"]}
{"id": "C40", "title": "Combinators select the right relatives", "statement": "Given a set of nodes, the child combinator yields exactly the matching element children, the descendant combinator exactly the matching element descendants, '+' the matching next sibling and '~' the matching later siblings.", "quantifier": "every reachable DOM, set and filter list", "why_tests_cant": "the input space is infinite; a test suite samples it", "anchors": ["src/dom/query/query-util.c"]}
{"id": "C41", "title": "querySelectorAll returns the set the selector denotes", "statement": "For every well-formed selector (compounds of tag/class/id/attribute filters joined by combinators, comma-separated lists) over known names, querySelectorAll succeeds and returns, without duplicates, exactly the nodes the selector denotes over the DOM tables.", "quantifier": "every reachable DOM and well-formed selector", "why_tests_cant": "selectors and DOMs are unbounded", "anchors": ["src/dom/query/query.c:flo_html_querySelectorAll"]}
{"id": "C42", "title": "Query parsing is total and safe", "statement": "flo_html_querySelectorAll terminates on every selector byte string without reading outside it, never stores more than 8 filters per element, and reports an error status instead.", "quantifier": "every selector byte string", "why_tests_cant": "the input space is infinite; a test suite samples it", "anchors": ["src/dom/query/query.c:getQueryResults"]}
{"id": "C43", "title": "Unknown names are reported", "statement": "A query that mentions a tag, attribute or value never seen in the DOM returns QUERY_NOT_SEEN_BEFORE and changes nothing.", "quantifier": "every DOM and name", "why_tests_cant": "the input space is infinite; a test suite samples it", "anchors": ["src/dom/query/query.c"]}
{"id": "C44", "title": "querySelector returns the first match in document order", "statement": "If querySelectorAll's result contains a node of the tree, querySelector returns the first one in pre-order; if the result is empty it returns 0 with success.", "quantifier": "every reachable DOM and selector", "why_tests_cant": "the input space is infinite; a test suite samples it", "anchors": ["src/dom/query/query.c:flo_html_querySelector"]}
{"id": "C45", "title": "Queries never return removed nodes", "statement": "No node removed from the document is returned by a query. (False: attributes of removed nodes and tags of replaced nodes stay in the tables.)", "quantifier": "every history ending in a removal or replacement", "why_tests_cant": "the input space is infinite; a test suite samples it", "anchors": ["src/dom/deletion.c", "src/dom/replacement.c", "src/dom/query/query-util.c"]}
{"id": "C46", "title": "Tag queries return only elements with that tag", "statement": "A tag query never returns a text node. (False: the tag id of a text node is the low 16 bits of its text pointer; true exactly if no text address collides.)", "quantifier": "every DOM and placement of text in memory", "why_tests_cant": "depends on the allocator's addresses", "anchors": ["src/dom/query/query-util.c:flo_html_filterNode", "include/flo/html-parser/node/node.h"]}
{"id": "C47", "title": "Universal and multi-part selectors mean what CSS says", "statement": "'*' selects all elements, 'a > *' selects the children of a, '.a > p' and '.a.b' are honoured. (False; exact behaviour proved.)", "quantifier": "every DOM", "why_tests_cant": "the input space is infinite; a test suite samples it", "anchors": ["src/dom/query/query.c:getQueryResults"]}
{"id": "C48", "title": "Edits through a selector without match change nothing", "statement": "flo_html_append...WithQuery whose selector matches nothing returns 0 and leaves the DOM unchanged. (False: the new node is attached to node 0.)", "quantifier": "every DOM and non-matching selector", "why_tests_cant": "the input space is infinite; a test suite samples it", "anchors": ["src/dom/appendix.c:APPEND_USING_QUERYSELECTOR"]}
{"id": "C49", "title": "DOM equality is an equivalence and is sound", "statement": "flo_html_equals is reflexive, symmetric and transitive and, when it succeeds, both documents have the same shape, tags, texts, boolean attribute sets, key sets and value sets; with at most 64 attributes per node it never aborts. (It does not imply equal key/value pairs: refuted.)", "quantifier": "every pair/triple of reachable DOMs", "why_tests_cant": "requires comparing all pairs of trees", "anchors": ["src/dom/comparison.c"]}
{"id": "C50", "title": "duplicateDom is observationally identical and independent", "statement": "Every query of the read API gives the same answer on the duplicate as on the original, the interned ids are the same, and later edits of one do not affect the other.", "quantifier": "every reachable DOM", "why_tests_cant": "the input space is infinite; a test suite samples it", "anchors": ["src/dom/dom.c:flo_html_duplicateDom"]}
{"id": "C51", "title": "A duplicated DOM can be edited safely", "statement": "Pushing to any array of a duplicated DOM stays inside allocated memory. (False for arrays that were empty when duplicated: capacity 0 is doubled to 0.)", "quantifier": "every DOM with an empty table", "why_tests_cant": "the input space is infinite; a test suite samples it", "anchors": ["util/include/flo/util/array.h:FLO_COPY_DYNAMIC_ARRAY", "util/include/flo/util/array.h:flo_grow"]}
{"id": "C52", "title": "Printing serialises the tree", "statement": "flo_html_writeHTMLToFile writes exactly the serialisation of the tree: text verbatim, elements as <tag bools key=\"value\"...> children </tag>, single tags as '/>' ('>' for !DOCTYPE).", "quantifier": "every reachable DOM", "why_tests_cant": "the input space is infinite; a test suite samples it", "anchors": ["src/dom/writing.c:printNode"]}
{"id": "C53", "title": "Printing then parsing gives the same document", "statement": "Parsing the printed form of a DOM gives an equal document. (False in general: pairedness is remembered per tag name, quotes are not escaped, '<input required/>'; true under explicit printable conditions.)", "quantifier": "every reachable DOM", "why_tests_cant": "the input space is infinite; a test suite samples it", "anchors": ["src/dom/writing.c:printNode", "src/parser.c:flo_html_parse"]}
{"id": "C54", "title": "Buffered output is exactly the concatenation", "statement": "For any sequence of appends of any sizes to a write buffer of any positive capacity, with write(2) accepting arbitrary positive parts, the bytes written plus the bytes pending are the concatenation of all data; after a flush nothing is pending. If write always fails the append loops forever.", "quantifier": "every capacity, data sequence and partial-write schedule", "why_tests_cant": "the schedule of partial writes is adversarial", "anchors": ["util/src/log.c:flo_appendToBuffer", "util/src/log.c:flo_flushBuffer"]}
{"id": "C55", "title": "Numbers are printed in decimal", "statement": "flo_appendUint64 / flo_appendPtrdiff emit exactly the decimal representation (with sign), without leading zeros, for every 64-bit value including the minimum; flo_appendPtr emits 16 hexadecimal digits (false: the last digit is dropped).", "quantifier": "every 64-bit value", "why_tests_cant": "2^64 values", "anchors": ["util/src/log.c:flo_appendUint64", "util/src/log.c:flo_appendPtrdiff", "util/src/log.c:flo_appendPtr"]}
{"id": "C56", "title": "createPath creates every parent directory", "statement": "flo_createPath calls mkdir for each proper directory prefix of the path, shortest first. (False for absolute paths: nothing is created.)", "quantifier": "every path", "why_tests_cant": "the input space is infinite; a test suite samples it", "anchors": ["util/src/file/path.c:flo_createPath"]}
{"id": "C57", "title": "Arena allocations are aligned, disjoint and in bounds", "statement": "Every block returned by flo_alloc is aligned, lies inside the arena, and is disjoint from all blocks returned before; when it does not fit the arena is unchanged and the call fails.", "quantifier": "every sequence of allocation requests", "why_tests_cant": "address arithmetic over all sizes and alignments", "anchors": ["util/src/memory/arena.c:flo_alloc"]}
{"id": "C58", "title": "Dynamic arrays keep their contents when growing", "statement": "Pushing any number of elements to arrays sharing one arena keeps all earlier elements of all arrays and never writes outside the array's own block.", "quantifier": "every interleaving of pushes", "why_tests_cant": "depends on which array is last in the arena", "anchors": ["util/include/flo/util/array.h:flo_grow", "util/include/flo/util/array.h:FLO_PUSH"]}
{"id": "C59", "title": "Pool allocator hands out disjoint chunks", "statement": "A pool allocator returns chunks that are aligned to the chunk size, inside the buffer, and never hands out a chunk twice without a free in between; exactly cap/chunkSize allocations succeed.", "quantifier": "every history of allocations and frees", "why_tests_cant": "histories are unbounded", "anchors": ["util/src/memory/pool-allocator.c"]}
{"id": "C60", "title": "Trie sets and maps behave like sets and maps", "statement": "flo_trie_insertStringSet returns true exactly for new keys and membership is exact; flo_trie_insertStringUint16Map returns the stored value for an existing key.", "quantifier": "every sequence of keys", "why_tests_cant": "hash collisions of arbitrary strings", "anchors": ["util/src/hash/trie/string-set.c", "util/src/hash/trie/string-uint16-map.c", "util/src/hash/trie/uint16-set.c"]}
{"id": "C61", "title": "The string hash set is a set", "statement": "The open-addressing string set used by comparison is exact on non-empty strings, probes terminate (odd step, power-of-two capacity, at most half full), and set equality is extensional.", "quantifier": "every set of at most 64 strings of any content", "why_tests_cant": "probe sequences depend on 64-bit hashes", "anchors": ["util/src/hash/msi/string-set.c", "util/include/flo/util/hash/msi/common.h"]}
{"id": "C62", "title": "Removed nodes have no parent and can be removed again", "statement": "After flo_html_removeNode(n), getParent(n) is 0 and calling removeNode(n) again is harmless. (False: prepending registers the old children of the parent a second time, so a removed node keeps a parent entry, and a second removal can dereference NULL.)", "quantifier": "all histories of API calls", "why_tests_cant": "the duplicate entries only appear after a prepend to a non-empty parent, and the crash needs a further removal of all siblings; the state space of histories is unbounded", "anchors": ["src/dom/prependix.c: updateReferences", "src/dom/dom-util.c: flo_html_connectOtherNodesToParent", "src/dom/deletion.c: flo_html_removeNode"]}
{"id": "C63", "title": "Replacing never puts a removed node into the tree", "statement": "After flo_html_replaceWithHTMLFromString no node marked as removed is in a child list. (False: a fragment of exactly two text nodes that both merge with their neighbours re-attaches one of the two removed nodes; true for all other fragments with at least one node.)", "quantifier": "all reachable DOMs, nodes and fragments", "why_tests_cant": "depends on the combination of fragment shape and neighbours for arbitrary documents", "anchors": ["src/dom/replacement.c: flo_html_replaceWithHTMLFromString"]}
{"id": "C64", "title": "flo_freePool makes every chunk available once", "statement": "After flo_freePool, whatever the state of the pool, exactly cap/chunkSize allocations of different chunks succeed. (False whenever a chunk was still free: the free list becomes cyclic and chunks are handed out twice.)", "quantifier": "every history of a pool", "why_tests_cant": "histories are unbounded", "anchors": ["util/src/memory/pool-allocator.c:flo_freePool"]}
{"id": "C65", "title": "A failed write neither repeats output nor overflows the buffer", "statement": "If write(2) reports an error, flo_flushBuffer and the append functions lose at most output: no byte reaches the file twice and nothing is stored outside the buffer. (False: a flush that fails after a part was accepted keeps the whole buffer, so that part is written again by the next flush; a newline appended to a full buffer that cannot be flushed is stored behind its end.)", "quantifier": "every buffer, every append and every schedule of write results", "why_tests_cant": "Depends on when the kernel fails and on how full the buffer is at that moment.", "anchors": ["util/src/log.c:flo_flushBuffer", "util/src/log.c:flo_appendToBuffer"]}
{"id": "C66", "title": "Trie iterators visit every key exactly once", "statement": "Calling the next function of a trie iterator repeatedly returns every key of the set, map or interning map exactly once (a map: with the value of the first insertion) and afterwards the zeroed result for ever.", "quantifier": "every sequence of insertions and every number of calls of next", "why_tests_cant": "The order and the reuse of iterator nodes depend on the hashes of all keys and on the shape of the trie.", "anchors": ["util/include/flo/util/hash/trie/common-iterator.h", "util/src/hash/trie/string-set.c", "src/dom/util/string-auto-uint16-map.c"]}
{"id": "C67", "title": "Buddy allocator calls return and stay inside the region", "statement": "After flo_createBuddyAllocator on a region of 2^k bytes, every sequence of flo_buddyAlloc (with non-negative total below 2^63-16), flo_freeBuddy of held blocks and stores into held blocks runs to completion; the allocator reads and writes no byte outside the region.", "quantifier": "every region, initial memory content and sequence of calls and stores", "why_tests_cant": "there are unboundedly many histories of calls; a test suite runs a few", "anchors": ["util/src/memory/buddy-allocator.c:flo_createBuddyAllocator", "util/src/memory/buddy-allocator.c:flo_buddyAlloc", "util/src/memory/buddy-allocator.c:flo_freeBuddy", "util/src/memory/buddy-allocator.c:flo_coalesceBuddies", "util/src/memory/buddy-allocator.c:flo_findBestBuddy", "util/src/memory/buddy-allocator.c:flo_splitBuddy"]}
{"id": "C68", "title": "Buddy blocks do not overlap and keep their contents", "statement": "Blocks returned by flo_buddyAlloc and not yet freed lie inside the region, are 16-aligned relative to it, do not overlap each other or any header, and keep what their owner stored through any later allocation, release or merge; with FLO_ZERO_MEMORY a new block is zeroed.", "quantifier": "every region, initial memory content and sequence of calls and stores", "why_tests_cant": "there are unboundedly many histories of calls; a test suite runs a few", "anchors": ["util/src/memory/buddy-allocator.c:flo_buddyAlloc", "util/src/memory/buddy-allocator.c:flo_freeBuddy"]}
{"id": "C69", "title": "Buddy allocation fails only when no free block is large enough", "statement": "flo_buddyAlloc returns NULL (or jumps) only if no free block is large enough. (False: the scan can miss the last block; true for all other blocks and for a region that is one free block.)", "quantifier": "every sequence of calls", "why_tests_cant": "there are unboundedly many histories of calls; a test suite runs a few", "anchors": ["util/src/memory/buddy-allocator.c:flo_findBestBuddy", "util/src/memory/buddy-allocator.c:flo_buddyAlloc"]}
{"id": "C70", "title": "Freeing everything makes the whole region available again", "statement": "When all blocks have been freed, a request for the whole region succeeds. (False: coalescing stops early and merges blocks that are not buddies; what holds is that all blocks are then free.)", "quantifier": "every sequence of calls", "why_tests_cant": "there are unboundedly many histories of calls; a test suite runs a few", "anchors": ["util/src/memory/buddy-allocator.c:flo_coalesceBuddies", "util/src/memory/buddy-allocator.c:flo_findBestBuddy"]}
{"id": "C71", "title": "A buddy request that does not fit fails cleanly", "statement": "A request larger than the region makes flo_buddyAlloc fail without touching held blocks. (False for totals of 2^63-16 bytes or more: out-of-bounds write, signed overflow.)", "quantifier": "every request size and count, every state", "why_tests_cant": "there are unboundedly many histories of calls; a test suite runs a few", "anchors": ["util/src/memory/buddy-allocator.c:flo_buddyAlloc", "util/src/memory/buddy-allocator.c:flo_splitBuddy"]}
{"id": "C72", "title": "Raw text growth keeps every byte", "statement": "Appending byte strings of any lengths one after the other to a growable raw buffer yields exactly their concatenation inside the arena, touches nothing outside the arena, or stops because the arena is full; an arena with room for four times the total length always suffices.", "quantifier": "every list of pieces, every arena", "why_tests_cant": "there are unboundedly many inputs and histories; a test suite runs a few", "anchors": ["util/include/flo/util/raw-data.h:flo_addRawData", "util/src/memory/arena.c:flo_alloc"]}
{"id": "C73", "title": "Reading markup from a file equals reading it from memory", "statement": "Reading a file returns exactly the file's bytes or one of three error codes, never writes outside the arena, and createDomFromFile / the ...FromFileWithQuery edits behave like their string versions on the file's content; an unreadable file changes nothing. (False for streams that cannot seek: the arena moves back one byte and the read can overflow it.)", "quantifier": "every file content, reported size and arena", "why_tests_cant": "there are unboundedly many inputs and histories; a test suite runs a few", "anchors": ["util/src/file/read.c:flo_readFile", "src/dom/dom.c:flo_html_createDomFromFile", "src/dom/appendix.c:flo_html_appendHTMLFromFileWithQuery", "src/dom/prependix.c:flo_html_prependHTMLFromFileWithQuery", "src/dom/replacement.c:flo_html_replaceWithHTMLFromFileWithQuery"]}
{"id": "C74", "title": "Growing arrays use arena space linear in their contents", "statement": "Whatever the order in which growable arrays in one arena grow or are copied, the space they need is bounded by a constant times what they finally hold; with that much room no run jumps out.", "quantifier": "every sequence of array operations, every arena", "why_tests_cant": "there are unboundedly many inputs and histories; a test suite runs a few", "anchors": ["util/include/flo/util/array.h:FLO_PUSH", "util/include/flo/util/array.h:flo_grow"]}
{"id": "C75", "title": "The size of a document is linear in its markup", "statement": "A parsed document has at most one node, one attribute, one text byte and one link of each kind per byte of markup; an edit adds at most one node per byte of its markup; so does any history.", "quantifier": "every source and every history of edits", "why_tests_cant": "there are unboundedly many inputs and histories; a test suite runs a few", "anchors": ["src/parser.c:flo_html_parse", "src/dom/dom.c:flo_html_createDom"]}
{"id": "C76", "title": "An abandoned edit keeps the nodes", "statement": "If an editing call leaves through longjmp (arena exhausted, or a 16-bit limit) at any point, every node that existed keeps its kind, tag, text and attributes, and hasBooleanProperty, hasPropKey, hasPropValue, hasProperty and getValue answer as before for it. Exceptions: a call inserting HTML may already have joined text to a text child of the edited node; setTextContent may already have removed the nodes below its node.", "quantifier": "every history, every editing call, every point at which it can jump", "why_tests_cant": "every allocation of every call is a crash point; tests cannot stop a call at each of them in every history", "anchors": ["src/dom/appendix.c", "src/dom/prependix.c", "src/dom/replacement.c", "src/dom/modification.c", "util/src/memory/arena.c:flo_alloc"]}
{"id": "C77", "title": "Traversal is safe after an abandoned edit", "statement": "After an editing call was abandoned at any point, traverseDom from the root terminates and visits either exactly the nodes it visited before, or an initial segment of what it visits after the completed call.", "quantifier": "every history, every editing call, every point at which it can jump", "why_tests_cant": "every allocation of every call is a crash point; tests cannot stop a call at each of them in every history", "anchors": ["src/dom/appendix.c", "src/dom/prependix.c", "src/dom/replacement.c", "src/dom/modification.c", "util/src/memory/arena.c:flo_alloc", "src/dom/traversal.c:flo_html_traverseDom"]}
{"id": "C78", "title": "An abandoned edit changes at most one child list", "statement": "After an editing call was abandoned, all child lists of existing nodes but that of the edited parent are unchanged, and the latter is the old one, the completed one, or (prepend, replaceWithHTML) the completed one cut off behind the new nodes.", "quantifier": "every history, every editing call, every point at which it can jump", "why_tests_cant": "every allocation of every call is a crash point; tests cannot stop a call at each of them in every history", "anchors": ["src/dom/appendix.c", "src/dom/prependix.c", "src/dom/replacement.c", "src/dom/modification.c", "util/src/memory/arena.c:flo_alloc"]}
{"id": "C79", "title": "Edits are all-or-nothing", "statement": "An editing call that is abandoned has no visible effect. (True of replacing by an element or a text, of attribute calls and of removals; false of prepending, which can lose all old children, and of setTextContent.)", "quantifier": "every history, every editing call, every point at which it can jump", "why_tests_cant": "every allocation of every call is a crash point; tests cannot stop a call at each of them in every history", "anchors": ["src/dom/appendix.c", "src/dom/prependix.c", "src/dom/replacement.c", "src/dom/modification.c", "util/src/memory/arena.c:flo_alloc"]}
{"id": "C80", "title": "A DOM can be edited after an abandoned edit", "statement": "Repeating an abandoned call with enough memory has its normal effect. (False: after an abandoned addProperty the repeated call succeeds, but getValue then reads outside the value registry.)", "quantifier": "every history, every editing call, every point at which it can jump", "why_tests_cant": "every allocation of every call is a crash point; tests cannot stop a call at each of them in every history", "anchors": ["src/dom/dom-util.c", "src/dom/util/string-auto-uint16-map.c", "src/dom/modification.c"]}
{"id": "C81", "title": "Every input has the meaning a simple reader gives it", "statement": "For every byte string, flo_html_createDom builds exactly the tree that a small declarative reader (maximal spans of name, attribute, word and comment characters; end tags compared by prefix; void and '/' tags without content) assigns to it; it refuses exactly the inputs with more than 255 open elements; its only undefined behaviour is a quote that starts a key or value as the last byte. The same holds for the HTML given to append, prepend and replaceWith in every reachable DOM.", "quantifier": "every byte string, well-formed or not; every reachable DOM for fragments", "why_tests_cant": "malformed HTML has no finite set of representatives: every byte can be the end of the input", "anchors": ["src/parser.c:flo_html_parse", "src/parser.c:flo_html_parseExtra", "src/parser.c:parseDocumentNode", "src/parser.c:parseTextNode", "src/dom/appendix.c", "src/dom/prependix.c", "src/dom/replacement.c"]}
{"id": "C82", "title": "Well-formed markup means the same whatever follows it and however it is spelt", "statement": "A well-formed piece of HTML followed by any bytes (that do not continue its last text) yields its own elements followed by what those bytes yield alone; two spellings of the same beginning (blanks, quotes, comments, text after the name in end tags) give the same document for every continuation.", "quantifier": "every well-formed piece, every continuation including malformed ones", "why_tests_cant": "quantifies over all continuations and all spellings", "anchors": ["src/parser.c:flo_html_parse"]}
{"id": "C83", "title": "A parsed document contains nothing that is not in the source", "statement": "Every tag name, attribute key and value of a parsed document is a contiguous part of the source; every text is a sequence of such parts separated by single spaces; the number of nodes and attributes, and the number of bytes in them, is at most the length of the source.", "quantifier": "every byte string; every fragment parsed into every reachable DOM", "why_tests_cant": "universally quantified over inputs; a stray read past the end shows up only for particular inputs", "anchors": ["src/parser.c:flo_html_parse", "src/parser.c:parseProp", "src/parser.c:parseTextNode", "src/parser.c:parseDocumentNode"]}
{"id": "C84", "title": "Every history of calls is a run of a simple tree machine", "statement": "After parsing and any sequence of valid editing calls, the document (ids, kinds, names, texts, attributes, order of children) is exactly the tree obtained by numbering the parsed trees in document order and applying, for each call, one tree function (insert at the end/start, replace, remove, with adjacent texts joined by one space). Every reachable DOM shows exactly one tree.", "quantifier": "every input, every history of valid calls of any length", "why_tests_cant": "quantifies over all histories; a test samples a few", "anchors": ["src/dom/appendix.c:flo_html_appendHTMLFromString", "src/dom/prependix.c:flo_html_prependHTMLFromString", "src/dom/replacement.c:flo_html_replaceWithHTMLFromString", "src/dom/deletion.c:flo_html_removeNode", "src/dom/modification.c:flo_html_setPropertyValue"]}
{"id": "C85", "title": "Editing obeys algebraic laws", "statement": "Attribute edits of a node commute with every other call that does not edit that node's attributes; removals commute; removing the element or attribute just added restores the document; the last of two assignments counts; setting a text is removing the children and appending the text; the effect of a call depends only on the visible tree and the next free id.", "quantifier": "every reachable DOM, every node, every argument", "why_tests_cant": "equations over all documents and arguments", "anchors": ["src/dom/appendix.c:flo_html_appendHTMLFromString", "src/dom/deletion.c:flo_html_removeNode", "src/dom/modification.c:flo_html_setPropertyValue"]}
{"id": "C86", "title": "Every selector string has a definite meaning", "statement": "For every byte string, well formed or not, querySelectorAll either accepts it and returns, without duplicates, exactly the union of what its comma-separated parts pick according to a reference reader of the dialect (names, filters, '*', last combinator wins, stray brackets), or refuses it with an empty result and the status of its first refused part (unknown name, no condition, too many filters).", "quantifier": "every byte string as a selector, every reachable DOM", "why_tests_cant": "infinitely many strings, most malformed; a test samples a few", "anchors": ["src/dom/query/query.c:flo_html_querySelectorAll", "src/dom/query/query-util.c:flo_html_filterNode", "src/dom/query/query-util.c:flo_html_getFilteredAdjacents"]}
{"id": "C87", "title": "Queries depend on the visible tree alone", "statement": "After every history, which nodes of the tree a query selects is determined by the tree (kinds, names, attributes, child order) and the string; querySelector gives the first in document order and edits through a selector apply to that node; documents that look the same answer alike. The status does not: a name seen once stays known.", "quantifier": "every history, every pair of documents that look the same, every selector string", "why_tests_cant": "quantifies over all histories and strings", "anchors": ["src/dom/query/query.c:flo_html_querySelector", "src/dom/query/query.c:flo_html_querySelectorAll", "src/dom/appendix.c:flo_html_appendDocumentNodeWithQuery"]}
{"id": "C88", "title": "A comma means union", "statement": "If two selector strings succeed, their concatenation with a comma succeeds and returns exactly the union without duplicates; the first that fails gives the status.", "quantifier": "every two byte strings, every reachable DOM", "why_tests_cant": "ranges over all pairs of strings", "anchors": ["src/dom/query/query.c:flo_html_querySelectorAll"]}
{"id": "C89", "title": "Setting text and names in place", "statement": "addTextToTextNode puts the new text behind (or before) the old one, separated by one blank; setTagOnDocumentNode gives the element the name. Neither changes any other field of the node, any other node or any child list. Whether a renamed element is paired is decided by the first use of the name, not by the argument, if the name is already known.", "quantifier": "every reachable DOM, every text node or element, every string and flag", "why_tests_cant": "ranges over all DOMs and strings", "anchors": ["src/dom/modification.c:flo_html_addTextToTextNode", "src/dom/modification.c:flo_html_setTagOnDocumentNode"]}
{"id": "C90", "title": "The life of a node", "statement": "Over every history of calls an id stays that of the same node: it never becomes invalid, the node keeps its kind until it is removed, a removed node stays removed and detached for ever, the name of an element changes only by setTagOnDocumentNode on it, and ids of new elements were not in use.", "quantifier": "every history of calls from every reachable DOM", "why_tests_cant": "quantifies over all histories; a test follows one", "anchors": ["src/dom/dom-util.c:flo_html_createNode", "src/dom/deletion.c:flo_html_removeNode", "src/dom/replacement.c:flo_html_replaceWithDocumentNode"]}
{"id": "C91", "title": "No call moves a node", "statement": "At the end of every history the children of a node that existed at its start are a subsequence of the children it had then: calls insert new nodes and take old ones out, but never reorder or move one, and a node outside the tree never comes in.", "quantifier": "every history of calls from every reachable DOM", "why_tests_cant": "quantifies over all histories and all positions", "anchors": ["src/dom/appendix.c", "src/dom/prependix.c", "src/dom/replacement.c", "src/dom/deletion.c"]}
{"id": "C92", "title": "Loops over sets and maps", "statement": "A FLO_FOR_EACH loop over a string set, a number set or a map visits only inserted elements, none twice, and all of them if none is empty (or 0, or has the value 0); over the maps inside a DOM it visits every name with its id. (False as a general statement: if the first element inserted is the empty string, 0 or has the value 0 nothing is visited.)", "quantifier": "every sequence of insertions, every reachable DOM", "why_tests_cant": "ranges over all insertion histories and hash values", "anchors": ["util/include/flo/util/hash/trie/string-set.h:FLO_FOR_EACH_TRIE_STRING", "util/include/flo/util/hash/trie/uint16-set.h:FLO_FOR_EACH_TRIE_UINT16", "util/include/flo/util/hash/trie/string-uint16-map.h:FLO_FOR_EACH_TRIE_STRING_UINT16", "include/flo/html-parser/util/string-auto-uint16-map.h:FLO_FOR_EACH_TRIE_STRING_AUTO_UINT16"]}
{"id": "C93", "title": "printFirstDifference tells the difference", "statement": "For any two nodes of any two documents printFirstDifference ends, writes exactly one report, and the report names a real difference of kind, text, pairedness, tag, attribute names or values; it says that there is none exactly if the nodes look alike; all of it reaches the file. (False: after flo_html_equals failed it always finds a difference; both tags are printed when they differ.)", "quantifier": "every pair of reachable DOMs and of nodes (at most 64 attributes of a sort), every behaviour of write", "why_tests_cant": "ranges over all pairs of documents", "anchors": ["src/dom/comparison.c:flo_html_printFirstDifference", "src/dom/comparison.c:compareTags", "src/dom/comparison.c:compareProps", "src/dom/comparison.c:compareBoolProps"]}
{"id": "C94", "title": "printDomStatus lists everything", "statement": "printDomStatus writes the whole content of the document's tables: every interned name with its id, every node, tag, attribute and link, each exactly once, in order, with all numbers in decimal and padded; it never reads out of bounds and all of it reaches the file.", "quantifier": "every reachable DOM (sizes that fit the C types), every behaviour of write that makes progress", "why_tests_cant": "ranges over all DOMs and all partial writes", "anchors": ["src/dom/writing.c:flo_html_printDomStatus"]}
{"id": "C95", "title": "A parse needs linear arena space", "statement": "Parsing n bytes never runs out of an arena with room for 1236 n + 2746 bytes: if createDom has a result (a document or NULL) it has that result in such an arena; in a smaller arena the only other result is the jump for lack of memory.", "quantifier": "every byte string and every arena", "why_tests_cant": "ranges over all inputs and all interleavings of the growth of ten arrays, four maps and the text buffers", "anchors": ["src/dom/dom.c:flo_html_createDom", "src/parser.c:flo_html_parse", "src/dom/dom-util.c:flo_html_createNode", "util/include/flo/util/array.h:flo_grow", "util/include/flo/util/raw-data.h:flo_addRawData", "src/dom/util/string-auto-uint16-map.c:flo_trie_insertStringAutoUint16Map"]}
{"id": "C96", "title": "The arena holds the document", "statement": "After a parse the arrays in the arena hold exactly the tables of the document: every link, attribute, node id and kind, and every byte of every text reads back, although the arrays were moved while they grew; nothing outside the arena changed.", "quantifier": "every byte string and every arena in which the parse fits", "why_tests_cant": "ranges over all inputs and growth orders", "anchors": ["src/dom/dom.c:flo_html_createDom", "src/parser.c:flo_html_parse", "util/include/flo/util/array.h:flo_grow", "util/include/flo/util/raw-data.h:flo_addRawData"]}
{"id": "C97", "title": "Space of the parent table", "statement": "Without prepend calls a document never holds more parent entries than nodes, however it was edited; appending an element adds one entry. (For prepend this is false: it adds one entry for every child already there, so m prepends to a node add about m*m/2.)", "quantifier": "every document, every history of valid calls", "why_tests_cant": "ranges over all histories", "anchors": ["src/dom/appendix.c:updateReferences", "src/dom/prependix.c:updateReferences", "src/dom/replacement.c:updateReferences", "src/dom/dom-util.c:flo_html_connectOtherNodesToParent", "src/dom/deletion.c:flo_html_removeNode"]}
{"id": "C98", "title": "Printing doubles", "statement": "Printing a double writes a minus sign if it is negative, the integral part in decimal, a dot and exactly six digits; the number written is within 1.000000001 millionths of the absolute value (rounded to the nearest millionth up to 2^20). (False from 2^63 on, where 'inf' is written for finite numbers too, and for NaN, which is undefined behaviour.)", "quantifier": "every double, every buffer state, every behaviour of write without errors", "why_tests_cant": "ranges over all 2^64 doubles", "anchors": ["util/src/log.c:flo_appendDouble", "util/src/log.c:flo_appendUint64", "util/src/log.c:flo_appendRepeatedCharToBuffer"]}
{"id": "C99", "title": "The arena holds the edited document", "statement": "After createDom and any number of valid edits in one arena, the tables in the arena hold exactly the links, attributes, node ids and kinds of the document, and every text is in a buffer of its own; nothing outside the arena has changed. A session that has a result ends with that result or with the jump for lack of memory, and never runs out of an arena with room for the final tables and 18 bytes per byte of text written. A text that the parser rejects leaves no document, and a full arena is reported for it only if the arena is too small for the text.", "quantifier": "every input, every sequence of valid edits, every arena position and size", "why_tests_cant": "ranges over all documents, edit sequences and arena sizes", "anchors": ["src/dom/appendix.c", "src/dom/prependix.c", "src/dom/replacement.c", "src/dom/deletion.c", "src/dom/modification.c", "util/include/flo/util/array.h:FLO_PUSH"]}
{"id": "C100", "title": "No stale table pointer", "statement": "No edit stores through a pointer into one of the document's tables that was taken before the table last grew (growing may move the table and the store would be lost), and no store is outside its table.", "quantifier": "every document and every edit that returns", "why_tests_cant": "whether a table moves depends on its length and on what else is in the arena, for every document", "anchors": ["src/dom/replacement.c", "src/dom/deletion.c", "src/dom/prependix.c", "src/dom/appendix.c", "util/include/flo/util/array.h:FLO_PUSH"]}
{"id": "C101", "title": "Saving a document", "statement": "writeHTMLToFile returns success only if the file now holds exactly the printed document; otherwise every file is as before. No other file changes. Loading the file again gives an equal document under the conditions of C53.", "quantifier": "every document, path, scratch arena and every sequence of answers of fopen and write", "why_tests_cant": "ranges over all failure points of the operating system", "anchors": ["src/dom/writing.c:flo_html_writeHTMLToFile", "util/src/file/path.c:flo_createPath", "util/src/log.c:flo_flushBuffer"]}
{"id": "C102", "title": "A DOM prints after an abandoned edit", "statement": "After an editing call was abandoned at any point, printing the DOM terminates, reads nothing outside the tables and gives the text of the tree reached from the root; after the all-or-nothing calls it is the old text. (Searching is not as clean: a query can find a node the abandoned call made, which is in no child list.)", "quantifier": "every history, every editing call, every point at which it can jump", "why_tests_cant": "every allocation of every call is a crash point; tests cannot stop a call at each of them in every history", "anchors": ["src/dom/writing.c:printNode", "src/dom/appendix.c", "src/dom/prependix.c", "src/dom/replacement.c", "src/dom/modification.c", "src/dom/query/query.c"]}
{"id": "C103", "title": "Queries work after an abandoned edit", "statement": "After an editing call was abandoned at any point, querySelectorAll and querySelector with any selector string terminate on the DOM, read nothing outside the tables, and report an error without results or give distinct node ids in range (querySelector: the first match of the walk from the root). After the all-or-nothing calls a selector whose names were known before gives the same status, the same of the nodes the DOM had, and the same first match.", "quantifier": "every history, every editing call, every point at which it can jump, every selector byte string", "why_tests_cant": "every allocation of every call is a crash point and every byte string is a selector; tests cannot cross them", "anchors": ["src/dom/query/query.c", "src/dom/query/query-util.c", "src/dom/appendix.c", "src/dom/prependix.c", "src/dom/replacement.c", "src/dom/modification.c"]}
{"id": "C104", "title": "Removing goes on after an abandoned edit", "statement": "After addProperty, addBooleanProperty, setPropertyValue, setTag, replaceWith(Document|Text)Node or addTextToTextNode was abandoned at any point, every sequence of removeNode, removeChildren, removeBooleanProperty, removeProperty and addTextToTextNode on the nodes the DOM had goes through exactly as if the abandoned call had not been made: same contents, attributes, child lists, traversal, printed text and query matches.", "quantifier": "every history, every such call, every point at which it can jump, every following sequence of such calls", "why_tests_cant": "every allocation is a crash point and the following sequences are unbounded", "anchors": ["src/dom/deletion.c", "src/dom/modification.c", "src/dom/replacement.c", "src/dom/dom-util.c"]}
{"id": "C105", "title": "An abandoned edit that shows no effect is harmless", "statement": "Whatever editing call was abandoned at whatever point: if the nodes and the child lists of the DOM look as before, then traversal, printed text, attribute questions and queries are as before too, and every later sequence of removals and addTextToTextNode goes through as if the call had never been made. There is no hidden damage to the old links.", "quantifier": "every history, every editing call, every point at which it can jump, every following sequence of removals, every selector", "why_tests_cant": "every allocation is a crash point and the following sequences are unbounded; a test would have to look for damage it cannot see", "anchors": ["src/dom/deletion.c", "src/dom/modification.c", "src/dom/appendix.c", "src/dom/prependix.c", "src/dom/replacement.c", "src/parser.c"]}
{"id": "C106", "title": "A document and its duplicate do not disturb each other", "statement": "createDom, edits, duplicateDom and then any mixture of edits of the original and of the duplicate, all in one arena: the memory then holds the original as its own edits alone leave it and the duplicate as its own edits alone leave it, and nothing outside the arena is written; the only other outcome is the jump for a full arena. Condition: no edit gives the duplicate its first element in a table that was empty when the duplicate was made (see C107). The texts are shared and stay intact. With room for an explicit number of bytes (a linear function of the sizes of the two final documents and of the texts given) the jump does not happen. A text that the parser rejects leaves no document, and a full arena is reported for it only if the arena is too small for the text.", "quantifier": "every document text, every history before the duplication, every interleaving of edits of the two documents, every arena", "why_tests_cant": "tables grow, move or grow in place depending on what was allocated in between, and the two documents share one arena and their texts: the interleavings are unbounded", "anchors": ["src/dom/dom.c", "util/include/flo/util/array.h", "src/dom/appendix.c", "src/dom/replacement.c", "util/src/memory/arena.c"]}
{"id": "C107", "title": "A duplicate can be edited like its original", "statement": "Every edit that is possible on a document is possible on its duplicate. FALSE of the code: if the document had no boolean attribute (or no attribute, no child, no two siblings) when it was duplicated, the first edit that brings one to the duplicate writes outside the memory of the copied table, whatever else was done to the two documents before; this never ends with a result. With that much room it is always the stray write, never the jump for a full arena.", "quantifier": "every document, every history, every edit that brings a first element to an empty table of the duplicate", "why_tests_cant": "a test passes by luck: the stray write lands in unused arena memory and is overwritten later; the claim is about every history", "anchors": ["src/dom/dom.c", "util/include/flo/util/array.h", "src/dom/modification.c"]}
{"id": "C108", "title": "Answers of queries stay valid while the document is edited", "statement": "createDom and then edits, querySelectorAll calls and the ...WithQuery edits (append, prepend, replaceWith at the node a selector finds, with its query in a scratch copy of the arena that is given back) in any order, all in one arena: each query returns the status and the ids that the document of that moment gives, and after all the calls the memory holds the document as the edits leave it and every array of ids that a query handed out still holds its answer (no later edit or query overwrites it, although each query first fills a scratch copy of the arena that starts at the address of its own result), and nothing outside the arena is written; the copy of the results never overlaps the sets it is made from. The only other outcome is the jump for a full arena. A query needs scratch memory at most in proportion to the product of the length of the selector and the number of nodes (stated as a formula), gives it back except for its result and at most one byte, and with the stated amount of room none of the calls runs out of memory. A ...WithQuery call whose selector is in error does nothing; a text that the parser rejects leaves no document.", "quantifier": "every document text, every mixture of edits and queries, every arena, every content of the scratch sets", "why_tests_cant": "scratch sets and the permanent result start at the same address, and tables move when they grow: which bytes are reused depends on the whole history", "anchors": ["src/dom/query/query.c", "src/dom/query/query-util.c", "src/dom/query/msi-uint16.c", "util/src/hash/msi/common.c", "util/src/memory/arena.c", "src/dom/appendix.c", "src/dom/prependix.c", "src/dom/replacement.c"]}
