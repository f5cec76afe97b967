{"id": "C01", "title": "base64 round trip", "statement": "For every byte string, decoding what coda_base64_encode produced (with a large enough output buffer) returns true, reports exactly the original length and reproduces the original bytes.", "quantifier": "all byte strings of any length, all sufficiently large output buffers", "why_tests_cant": "the input space is infinite and the tail cases depend on length mod 3 combined with arbitrary bytes", "anchors": ["coda/base64.c:coda_base64_encode", "coda/base64.c:coda_base64_decode"]}
{"id": "C02", "title": "base64 encode writes exactly the RFC 4648 text, truncated to outlen, and touches nothing else", "statement": "coda_base64_encode(in,inlen,out,outlen) never reads outside in[0..inlen), writes exactly the first min(outlen, 4*ceil(inlen/3)) characters of the RFC 4648 encoding into out, adds one terminating zero iff room is left, and leaves every other byte of out unchanged.", "quantifier": "all input buffers, all inlen <= buffer size, all outlen <= output buffer size", "why_tests_cant": "every truncation point of every length must be covered, and out-of-bounds accesses are invisible to an assertion on the output", "anchors": ["coda/base64.c:coda_base64_encode", "coda/base64.h:CODA_BASE64_LENGTH"]}
{"id": "C03", "title": "base64 decode accepts exactly the well-formed texts and is bounded by *outlen", "statement": "coda_base64_decode returns true iff the input is a sequence of 4-character groups over the alphabet where only the last group may end in one or two '='; it never reads outside in[0..inlen), never writes more than the initial *outlen bytes, on return *outlen is the number of bytes written, and what is written is a prefix of the full decoding.", "quantifier": "all byte strings as input (valid or not), all output capacities", "why_tests_cant": "malformed inputs and capacities form an infinite family", "anchors": ["coda/base64.c:coda_base64_decode", "coda/base64.c:coda_isbase64"]}
{"id": "C04", "title": "base64 encode_alloc detects exactly the size_t overflows", "statement": "coda_base64_encode_alloc reports 0/NULL exactly when 1+4*ceil(inlen/3) does not fit in 64 bits; otherwise the requested allocation is exactly the encoded length plus one.", "quantifier": "every 64-bit inlen", "why_tests_cant": "2^64 possible lengths, and the overflowing ones cannot be allocated in a test", "anchors": ["coda/base64.c:coda_base64_encode_alloc"]}
{"id": "C05", "title": "base64 decode_alloc allocates enough for every valid input", "statement": "The buffer of 3*(inlen/4)+2 bytes allocated by coda_base64_decode_alloc is never too small: on success the reported length and bytes are the complete decoding, on failure *out is NULL.", "quantifier": "all inputs", "why_tests_cant": "needs an argument over every length and every padding combination", "anchors": ["coda/base64.c:coda_base64_decode_alloc"]}
{"id": "C06", "title": "web64 round trip", "statement": "For every byte string, web64_decode of the web64_encode output returns true with the original length and bytes.", "quantifier": "all byte strings", "why_tests_cant": "infinite input space", "anchors": ["coda/web64.c:web64_encode", "coda/web64.c:web64_decode"]}
{"id": "C07", "title": "web64 output is URL safe", "statement": "Every character web64_encode writes is an ASCII letter, a digit, '-', '_' or '.', so it is left unchanged by coda_urlenc and coda_urldec.", "quantifier": "all byte strings, all output capacities", "why_tests_cant": "universal claim over all inputs", "anchors": ["coda/web64.c:web64_encode", "coda/url.cpp:coda_urlenc"]}
{"id": "C08", "title": "web64 memory contract and acceptance", "statement": "web64_encode and web64_decode satisfy the same bounds and acceptance contract as the base64 functions (with '-', '_' and '.' in place of '+', '/' and '=').", "quantifier": "all inputs and all buffer sizes", "why_tests_cant": "all truncation points and malformed inputs", "anchors": ["coda/web64.c:web64_encode", "coda/web64.c:web64_decode"]}
{"id": "C09", "title": "base58 decode inverts encode", "statement": "For every byte string (including leading zero bytes and the empty string), coda_base58_decode of the coda_base58_encode output returns the original length and bytes.", "quantifier": "all byte strings shorter than the 32-bit scratch-length limit", "why_tests_cant": "big-number arithmetic over unbounded lengths", "anchors": ["coda/base58.c:coda_base58_encode", "coda/base58.c:coda_base58_decode"]}
{"id": "C10", "title": "base58 encode inverts decode", "statement": "Every string over the base58 alphabet decodes successfully and re-encoding the decoded bytes yields the same string, so the encoding is a bijection between byte strings and base58 texts.", "quantifier": "all base58 strings", "why_tests_cant": "infinite input space", "anchors": ["coda/base58.c:coda_base58_encode", "coda/base58.c:coda_base58_decode"]}
{"id": "C11", "title": "base58 scratch buffers are large enough", "statement": "The scratch arrays of inlen*138/100+1 base-58 digits (encode) and inlen*733/1000+1 bytes (decode) always hold the whole number: no access outside them happens, and the 'carry left over' exit of decode is never taken.", "quantifier": "all inputs whose scratch length fits in 31 bits", "why_tests_cant": "the worst case is an inequality between powers for every length; a violation is silent heap corruption", "anchors": ["coda/base58.c:coda_base58_encode", "coda/base58.c:coda_base58_decode"]}
{"id": "C12", "title": "base58 decode rejects bad input with a negative position", "statement": "coda_base58_decode returns a negative number exactly when the input contains a character outside the alphabet, and its absolute value is the index of the first such character.", "quantifier": "all byte strings", "why_tests_cant": "all positions in all strings", "anchors": ["coda/base58.c:coda_base58_decode", "coda/base58.c:coda_isbase58"]}
{"id": "C13", "title": "base58 encode_alloc / decode_alloc buffers and return values", "statement": "coda_base58_encode_alloc's buffer always holds the complete NUL-terminated encoding and the returned size is the length of the encoded text; coda_base58_decode_alloc's buffer holds the complete decoding.", "quantifier": "all byte strings", "why_tests_cant": "every length and every number of leading zeroes", "anchors": ["coda/base58.c:coda_base58_encode_alloc", "coda/base58.c:coda_base58_decode_alloc"]}
{"id": "C14", "title": "bounded character search finds the first / last occurrence", "statement": "coda_strnchr, coda_strxchr, coda_strnchp, coda_strxchp return the first position among the first len bytes whose byte equals c (ignoring ASCII case for the x variants) and coda_revnchr, coda_revxchr the last one; NULL / len if there is none. They never read outside s[0..len).", "quantifier": "all buffers, all characters, all len", "why_tests_cant": "universal over buffers; reading outside is invisible to tests", "anchors": ["coda/string.c:coda_strnchr", "coda/string.c:coda_strxchr", "coda/string.c:coda_revnchr", "coda/string.c:coda_revxchr", "coda/string.c:coda_strnchp", "coda/string.c:coda_strxchp"]}
{"id": "C15", "title": "bounded substring search finds the first occurrence", "statement": "coda_strnstr / coda_strxstr return the first position where the non-empty needle occurs completely inside the first len bytes (exactly / ignoring case), NULL if there is none, reading only s[0..len); coda_stristr does the same for NUL-terminated strings.", "quantifier": "all haystacks, needles and len", "why_tests_cant": "infinite input space; overlapping partial matches", "anchors": ["coda/string.c:coda_strnstr", "coda/string.c:coda_strxstr", "coda/string.c:coda_stristr"]}
{"id": "C16", "title": "forward span functions return the maximal prefix", "statement": "coda_str{i,n,x}spn return the length of the longest prefix consisting of characters of the alphabet n, and coda_str{i,n,x}spc of the longest prefix free of them.", "quantifier": "all strings, alphabets and lengths", "why_tests_cant": "universal", "anchors": ["coda/string.c:coda_strispn", "coda/string.c:coda_strnspn", "coda/string.c:coda_strxspn", "coda/string.c:coda_strispc", "coda/string.c:coda_strnspc", "coda/string.c:coda_strxspc"]}
{"id": "C17", "title": "backward span functions return the maximal suffix", "statement": "coda_rev{n,x}spn return the length of the longest suffix of s[0..len) consisting of alphabet characters and coda_rev{n,x}spc of the longest suffix free of them.", "quantifier": "all strings, alphabets and lengths", "why_tests_cant": "universal", "anchors": ["coda/string.c:coda_revnspn", "coda/string.c:coda_revxspn", "coda/string.c:coda_revnspc", "coda/string.c:coda_revxspc"]}
{"id": "C18", "title": "bounded decimal conversion", "statement": "coda_atou returns the decimal value modulo 2^64 of a string of digits and 0 for any string containing a non-digit; coda_atoi additionally accepts one leading '-' and returns the two's complement negation, hence the exact value for every number in int64 range.", "quantifier": "all byte strings of any length", "why_tests_cant": "overflow and malformed tails over unbounded strings", "anchors": ["coda/string.h:coda_atou", "coda/string.h:coda_atoi"]}
{"id": "C19", "title": "split_string partitions the source", "statement": "With ignore_empty=false the pieces returned by coda_split_string, interleaved with single delimiter characters, rebuild the source exactly and no piece contains a delimiter; with ignore_empty=true the result is the same list without the empty pieces.", "quantifier": "all sources, delimiter sets and both flags, both overloads", "why_tests_cant": "universal over strings", "anchors": ["coda/string.cpp:coda_split_string"]}
{"id": "C20", "title": "stringset is the set of comma separated fields", "statement": "coda_get_stringset adds exactly the comma separated fields of a non-empty string to the set and keeps what was there.", "quantifier": "all strings and initial sets", "why_tests_cant": "universal", "anchors": ["coda/string.cpp:coda_get_stringset"]}
{"id": "C21", "title": "uint64set is the set of parsed fields", "statement": "coda_get_uint64set adds, for every comma separated field starting with a number, that number to the set and nothing else.", "quantifier": "all strings", "why_tests_cant": "a field without a number makes the code insert an indeterminate value; tests usually see 'some' value", "anchors": ["coda/string.cpp:coda_get_uint64set"]}
{"id": "C22", "title": "bounded append/insert of formatted text", "statement": "coda_strnappend appends, and coda_strnprintf inserts at pos, exactly the first min(num, length) characters of the formatted text and returns that number; coda_strnprintf returns -1 and changes nothing if pos is past the end; no internal buffer is overrun.", "quantifier": "all num, pos, existing contents and formatted texts", "why_tests_cant": "the boundary at the internal 32 KiB buffer and at num itself; all sizes", "anchors": ["coda/string.cpp:coda_strnappend", "coda/string.cpp:coda_strnprintf"]}
{"id": "C23", "title": "unbounded formatted text is never truncated", "statement": "coda_strappend appends the complete formatted text and returns its length, and coda_strprintf returns the complete formatted text, regardless of its size relative to the internal 32 KiB buffer.", "quantifier": "all formatted texts", "why_tests_cant": "boundary at the internal buffer size; all sizes", "anchors": ["coda/string.cpp:coda_strappend", "coda/string.cpp:coda_strprintf"]}
{"id": "C24", "title": "random_string draws only from the alphabet", "statement": "coda_random_string returns exactly size characters, each of them one of the first alphabet_size characters of the alphabet, whatever the random source returns.", "quantifier": "all sizes, alphabets, and random sequences", "why_tests_cant": "depends on every possible random stream", "anchors": ["coda/string.cpp:coda_random_string", "coda/random.c:coda_random_init"]}
{"id": "C25", "title": "get_next_word enumerates the whitespace separated words", "statement": "Repeatedly calling get_next_word with be=en yields, in order, exactly the maximal runs of non-whitespace characters of the string, then 0.", "quantifier": "all NUL-terminated strings", "why_tests_cant": "universal over strings, including leading/trailing blanks", "anchors": ["coda/easy_parsing.cpp:get_next_word"]}
{"id": "C26", "title": "URL encode/decode round trip", "statement": "coda_urldec(coda_urlenc(s)) = s and coda_urldec(coda_urlenc_noplus(s)) = s for every byte string.", "quantifier": "all byte strings", "why_tests_cant": "infinite input space, all 256 byte values in all positions", "anchors": ["coda/url.cpp:coda_urlenc", "coda/url.cpp:coda_urlenc_noplus", "coda/url.cpp:coda_urldec"]}
{"id": "C27", "title": "URL encode output alphabet and size", "statement": "coda_urlenc / coda_urlenc_noplus leave exactly the RFC 3986 unreserved characters untouched, encode a blank as '+' (resp. '%20') and every other byte as %XX with upper case hex; the output has at most three times the input length.", "quantifier": "all byte strings", "why_tests_cant": "universal", "anchors": ["coda/url.cpp:coda_urlenc", "coda/url.cpp:coda_urlenc_noplus", "coda/url.cpp:table_urlenc"]}
{"id": "C28", "title": "buffer and string variants of urlenc/urldec agree and stay in bounds", "statement": "The char* variants write exactly the result of the std::string variants followed by one zero byte, return its length, read only src[0..sz), and stay inside a destination of 3*sz+1 (encode) or sz+1 (decode) bytes.", "quantifier": "all inputs and destination contents", "why_tests_cant": "writes out of bounds are invisible to result assertions", "anchors": ["coda/url.cpp:coda_urlenc", "coda/url.cpp:coda_urldec"]}
{"id": "C29", "title": "urldec is total", "statement": "coda_urldec maps '+' to blank, %XY to the byte with these hex digits whenever two more characters follow, copies everything else, and never produces more bytes than it reads.", "quantifier": "all byte strings, including truncated and malformed escapes", "why_tests_cant": "all malformed tails", "anchors": ["coda/url.cpp:coda_urldec"]}
{"id": "C30", "title": "query parameter parsing", "statement": "coda_get_params_buf sets params[k] to v exactly for the '&'-separated segments containing '=', split at the first '='; the last segment with a key wins, keys not mentioned keep their old value; returns 0 (or -1 for NULL, changing nothing).", "quantifier": "all strings and initial maps", "why_tests_cant": "universal over segment structures", "anchors": ["coda/url.cpp:coda_get_params_buf", "coda/url.cpp:coda_get_params"]}
{"id": "C31", "title": "header parsing", "statement": "coda_get_header_buf sets header[k] to v exactly for the CRLF-separated lines up to the first empty line that contain ':', split at the first ':'; the last line with a key wins; other keys are unchanged.", "quantifier": "all strings and initial maps", "why_tests_cant": "universal over line structures", "anchors": ["coda/url.cpp:coda_get_header_buf", "coda/url.cpp:coda_get_header"]}
{"id": "C32", "title": "url_escape stays inside its buffer and escapes like urlenc", "statement": "For every NUL-terminated string and sz>=3, coda_url_escape writes only dest[0..sz), always leaves a terminating zero, and if the buffer is large enough the result equals coda_urlenc of the string.", "quantifier": "all strings and buffer sizes", "why_tests_cant": "all truncation points; bytes above 127 index a table with a negative number", "anchors": ["coda/url.cpp:coda_url_escape"]}
{"id": "C33", "title": "url_unescape stays inside its buffer and inverts urlenc", "statement": "For every NUL-terminated string and sz>=2, coda_url_unescape writes only dest[0..sz), leaves a zero terminator, and on the output of coda_urlenc it reproduces the original bytes if they fit.", "quantifier": "all strings and buffer sizes", "why_tests_cant": "%u escapes write two bytes per step; all truncation points", "anchors": ["coda/url.cpp:coda_url_unescape"]}
{"id": "C34", "title": "url_preunescape stays inside its buffer", "statement": "coda_url_preunescape(s,dest,sz) writes only inside a destination of sz bytes.", "quantifier": "all strings and sizes", "why_tests_cant": "memory-safety claim over all inputs", "anchors": ["coda/url.cpp:coda_url_preunescape"]}
{"id": "C35", "title": "URL parser memory safety", "statement": "create_absolute and create_relative read only u[0..sz) and stay inside the buffer they allocate, for every input.", "quantifier": "all byte strings, flags and parents", "why_tests_cant": "memory safety over all inputs", "anchors": ["coda/url_parser.cpp:create_absolute", "coda/url_parser.cpp:create_relative", "coda/url_parser.cpp:assign_anchor", "coda/url_parser.cpp:assign_refers"]}
{"id": "C36", "title": "URL path normalisation", "statement": "The path of the resulting URL is the dot-segment-free form of the input path: '.' and empty segments are removed, '..' removes the previous segment and never climbs above the root, and without the FETCHABLE flag a trailing slash is dropped unless the path is the root; the query is preserved literally and the fragment removed.", "quantifier": "all inputs", "why_tests_cant": "arbitrary nesting of segments", "anchors": ["coda/url_parser.cpp:assign_refers"]}
{"id": "C37", "title": "URL normal form is idempotent", "statement": "Parsing the URL text produced by create_absolute again with the same flags gives the same URL and domain.", "quantifier": "all inputs and flags", "why_tests_cant": "universal over inputs", "anchors": ["coda/url_parser.cpp:create_absolute"]}
{"id": "C38", "title": "URL host normalisation and domain", "statement": "The host part is lower case, has no leading or trailing dots, consists of domain symbols only, is always followed by '/', and get_domain returns its last two labels.", "quantifier": "all inputs", "why_tests_cant": "universal", "anchors": ["coda/url_parser.cpp:assign_anchor"]}
{"id": "C39", "title": "relative URLs stay on the parent's host", "statement": "A successful create_relative with a non-absolute reference yields a URL with the parent's scheme, host and domain.", "quantifier": "all parents produced by create_absolute, all references", "why_tests_cant": "universal over parents (including unusual scheme spellings)", "anchors": ["coda/url_parser.cpp:create_relative", "coda/url_parser.cpp:create_suburl"]}
{"id": "C40", "title": "SUBDOMAIN flag confines to the parent's domain", "statement": "With CODA_URL_SUBDOMAIN, create_relative succeeds only if the resulting domain equals the parent's domain ignoring case; otherwise it returns -1 and leaves an empty object.", "quantifier": "all references and parents", "why_tests_cant": "security relevant universal claim", "anchors": ["coda/url_parser.cpp:create_relative"]}
{"id": "C41", "title": "URL objects copy deeply", "statement": "Copy construction and assignment give an object with equal URL and domain in separate storage; every operation sequence (including self assignment) frees each allocation exactly once and never uses freed storage.", "quantifier": "all sequences of create/copy/assign/destroy operations", "why_tests_cant": "heap misuse over all histories", "anchors": ["coda/url_parser.cpp:operator=", "coda/url_parser.cpp:coda_url", "coda/url_parser.cpp:reset"]}
{"id": "C42", "title": "cache get returns the last value set", "statement": "get(k) returns the value of the most recent set(k,.) unless the entry was erased, evicted or expired since; it never returns another key's or an older value.", "quantifier": "all operation sequences and clock readings (sizes and times within the range of size_t)", "why_tests_cant": "histories are unbounded and the container is a hand-written linked list over a hash table", "anchors": ["coda/cache.tcc:get", "coda/cache.tcc:set", "coda/cache.tcc:erase"]}
{"id": "C43", "title": "cache eviction order is oldest-set first and minimal", "statement": "When an insertion makes the total exceed size_max, entries are removed in order of their last set, oldest first, and only as many as needed.", "quantifier": "all operation sequences (sizes and times within the range of size_t)", "why_tests_cant": "unbounded histories", "anchors": ["coda/cache.tcc:drop_last_unused", "coda/cache.tcc:set"]}
{"id": "C44", "title": "cache size never exceeds size_max", "statement": "After every public operation the sum of the estimated sizes of the stored values is at most size_max.", "quantifier": "all operation sequences (sizes and times within the range of size_t)", "why_tests_cant": "unbounded histories; the in-place update path is easy to miss", "anchors": ["coda/cache.tcc:set", "coda/cache.hpp:coda_cache"]}
{"id": "C45", "title": "cache internal links never dangle", "statement": "No operation sequence makes the cache follow a null or dangling link; the size accounting always equals the sum over stored entries and every entry is reachable oldest to newest exactly once.", "quantifier": "all operation sequences (sizes and times within the range of size_t)", "why_tests_cant": "pointer integrity over all histories", "anchors": ["coda/cache.tcc"]}
{"id": "C46", "title": "cache expiry", "statement": "With time_max>0, get(k) returns nothing (and removes the entry) exactly when now > creation time + time_max, where the creation time is that of the insertion or of the last set with do_update_time; with time_max=0 entries never expire.", "quantifier": "all histories and clock readings below 2^63, time_max at most 2^63", "why_tests_cant": "clock readings are unbounded", "anchors": ["coda/cache.tcc:get", "coda/cache.tcc:set"]}
{"id": "C47", "title": "synque is FIFO for every schedule", "statement": "For every interleaving of any number of threads, the sequence of elements handed out by get (single and batch) is a prefix of the sequence of elements added, in order, without loss or duplication.", "quantifier": "all interleavings of any number of threads, with spurious wakeups", "why_tests_cant": "schedules cannot be enumerated by tests", "anchors": ["coda/synque.hpp:add", "coda/synque.hpp:get"]}
{"id": "C48", "title": "synque has no lost wake-ups", "statement": "Whenever elements are queued while threads sleep in get, enough already woken threads are on their way to fetch them.", "quantifier": "all interleavings", "why_tests_cant": "lost wake-ups need rare schedules", "anchors": ["coda/synque.hpp:add", "coda/synque.hpp:get"]}
{"id": "C49", "title": "synque blocking get returns an element", "statement": "A get with canwait!=0 returns 0 with an element.", "quantifier": "all interleavings", "why_tests_cant": "needs a schedule with a competing consumer or a spurious wake-up", "anchors": ["coda/synque.hpp:get"]}
{"id": "C50", "title": "shared stack is a bounded LIFO", "statement": "Any sequence of push/pop/clear/attach on shm::stack behaves as a stack of at most N elements: push fails exactly when full, pop of a non-empty stack returns the last pushed element, and re-attaching preserves the contents.", "quantifier": "all operation sequences, all N", "why_tests_cant": "unbounded histories", "anchors": ["coda/shm_stack.tcc"]}
{"id": "C51", "title": "shared pool never hands out an index twice", "statement": "As long as only allocated indices are freed (once), shm::pool::allocate returns an index below N that is not currently allocated, returns (uint32_t)-1 exactly when all N are allocated, and allocated_objects is the number of live indices.", "quantifier": "all allocate/free/clear sequences", "why_tests_cant": "unbounded histories", "anchors": ["coda/shm_pool.tcc"]}
{"id": "C52", "title": "shared hash map refines a finite map", "statement": "Any sequence of insert/erase/read/size/clear (single and batch) behaves like a finite map from uint64 keys with at most N entries: insert of a new key fails exactly when N entries are stored and then changes nothing, read returns the last inserted value, size is the number of keys.", "quantifier": "all operation sequences, all N and hash sizes", "why_tests_cant": "chains, free list and bucket collisions over unbounded histories", "anchors": ["coda/shm_hash_map.tcc:unprotected_insert", "coda/shm_hash_map.tcc:unprotected_erase", "coda/shm_hash_map.tcc:unprotected_read"]}
{"id": "C53", "title": "hash map iteration visits every entry exactly once", "statement": "Iterating from begin() to end() on an unchanging map terminates and yields each stored key with its value exactly once.", "quantifier": "all reachable maps", "why_tests_cant": "chain/bucket structure of arbitrary maps", "anchors": ["coda/shm_hash_map.hpp:const_iterator", "coda/shm_hash_map.hpp:begin"]}
{"id": "C54", "title": "hash map reader/writer lock", "statement": "At every moment of every interleaving either no process is inside a write section, or exactly one process is and no process is inside a read section; this also holds when lock holders crash.", "quantifier": "all interleavings of any number of processes, with crashes", "why_tests_cant": "schedules and crash points", "anchors": ["coda/shm_hash_map.tcc:lock_read_rw", "coda/shm_hash_map.tcc:lock_write_rw", "coda/shm_hash_map.tcc:unlock_read_rw", "coda/shm_hash_map.tcc:unlock_write_rw"]}
{"id": "C55", "title": "hash map batches are atomic for readers", "statement": "A protected read never observes a state in the middle of a protected insert, erase or batch: every read result equals the result on a map between completed operations.", "quantifier": "all interleavings without crashes", "why_tests_cant": "schedules", "anchors": ["coda/shm_hash_map.tcc:insert", "coda/shm_hash_map.tcc:read", "coda/shm_hash_map.tcc:erase"]}
{"id": "C56", "title": "hash map first connect is race free", "statement": "Concurrent first connects of several processes keep the lock's mutual exclusion.", "quantifier": "all interleavings of connects", "why_tests_cant": "needs a precise race between semget and semctl", "anchors": ["coda/shm_hash_map.tcc:connect_sem"]}
{"id": "C57", "title": "hash map memory layout", "statement": "Header, free stack, node array and hash array occupy disjoint ranges inside the required_space() bytes, for all template parameters whose sizes fit in int.", "quantifier": "all template parameters", "why_tests_cant": "all sizes", "anchors": ["coda/shm_hash_map.tcc:attach", "coda/shm_hash_map.tcc:required_space", "coda/shm_hash_map.tcc:floor1024"]}
{"id": "C58", "title": "shared queue delivers boxes in FIFO order", "statement": "For every interleaving of writers and readers, the boxes received by unflush are, in order and without duplication, the boxes accepted by flush; a flush is refused exactly when size-1 boxes are stored. Registers behave like variables. (Interrupted locks are C62, deaths inside a section C84, sizes that overflow C85.)", "quantifier": "all interleavings of any number of processes", "why_tests_cant": "schedules over a ring buffer with two semaphores", "anchors": ["coda/shm_queue.tcc:flush", "coda/shm_queue.tcc:unflush"]}
{"id": "C59", "title": "shared queue count semaphore never over-promises", "statement": "The number reported by boxes_in_queue plus the readers that already took a ticket equals the number of stored boxes, so a reader never copies an unwritten box.", "quantifier": "all interleavings", "why_tests_cant": "schedules", "anchors": ["coda/shm_queue.tcc:unflush", "coda/shm_queue.tcc:boxes_in_queue"]}
{"id": "C60", "title": "shared queue items survive boxing", "statement": "Fixed-size items put by a writer and flushed are returned by get, in order, from the corresponding boxes; put returns false only for items larger than a box.", "quantifier": "all item sequences and box sizes", "why_tests_cant": "all packing boundaries", "anchors": ["coda/shm_queue.tcc:put", "coda/shm_queue.tcc:get"]}
{"id": "C61", "title": "a failed queue connect does not block other processes", "statement": "If connect throws, the queue lock is released and the error is reported.", "quantifier": "all failure points of connect", "why_tests_cant": "error paths of system calls", "anchors": ["coda/shm_queue.tcc:connect", "coda/shm_queue.tcc:connect_shm"]}
{"id": "C62", "title": "queue lock tolerates interrupted system calls", "statement": "Mutual exclusion of the queue's critical sections holds even if semop is interrupted by a signal.", "quantifier": "all interleavings and interruptions", "why_tests_cant": "signal timing", "anchors": ["coda/shm_queue.tcc:lock_queue", "coda/shm_queue.tcc:unlock_queue"]}
{"id": "C63", "title": "string storage keeps distinct keys apart", "statement": "string_storage_add returns different slots for different strings and the same slot for the same string, for the whole life of the storage.", "quantifier": "all sequences of added strings", "why_tests_cant": "the prefix-sharing tree depends on the whole insertion history", "anchors": ["coda/stringstorage.c:internal_find_add", "coda/stringstorage.c:string_storage_add"]}
{"id": "C64", "title": "string storage slots stay inside their blocks and never overlap", "statement": "Every slot (length byte, user data, suffix) lies inside one 4096-byte block and slots are pairwise disjoint.", "quantifier": "all sequences of added strings and user data sizes", "why_tests_cant": "boundary lengths over all histories", "anchors": ["coda/stringstorage.c:string_storage_add", "coda/stringstorage.c:internal_find_add"]}
{"id": "C65", "title": "string storage arrays have room", "statement": "The growth policy of allocate_reallocate_array always leaves room for one more element, for any number of elements added one by one.", "quantifier": "all element counts", "why_tests_cant": "all counts", "anchors": ["coda/stringstorage.c:allocate_reallocate_array"]}
{"id": "C66", "title": "log_array bucket selection", "statement": "get_by_value(i) selects bucket min(floor(log2 i), MaxLog-1) for i>0, so smaller values never land in a higher bucket, and never accesses outside the array; swap exchanges all buckets.", "quantifier": "all values and bucket counts", "why_tests_cant": "all 64-bit values", "anchors": ["coda/log_array.hpp:get_by_value", "coda/log_array.hpp:swap"]}
{"id": "C67", "title": "gmtime is the Gregorian calendar", "statement": "For every non-negative time whose year fits in int, coda_gmtime yields the proleptic Gregorian date and time of day: a valid month and day whose distance from 1970-01-01 is t seconds, with the right weekday.", "quantifier": "all non-negative time values", "why_tests_cant": "leap-year rules over all dates", "anchors": ["coda/gmtime.h:coda_gmtime"]}
{"id": "C68", "title": "msleep splits milliseconds exactly", "statement": "For every non-negative ms, the timespec passed to nanosleep is normalised and denotes exactly ms milliseconds.", "quantifier": "all non-negative ints", "why_tests_cant": "all values", "anchors": ["coda/gmtime.h:coda_msleep"]}
{"id": "C69", "title": "inet_addr parses exactly the dotted quads", "statement": "coda_inet_addr returns the network-order address for every dotted-decimal a.b.c.d with octets below 256 and INADDR_NONE for everything else.", "quantifier": "all byte strings", "why_tests_cant": "infinite input space; overflow in octets", "anchors": ["coda/socket.h:coda_inet_addr"]}
{"id": "C70", "title": "recv is retried exactly on EINTR", "statement": "coda_unix_recv returns the first result of recv that is not an EINTR failure, mapping other failures to -1.", "quantifier": "all sequences of system call results", "why_tests_cant": "arbitrarily many interruptions", "anchors": ["coda/socket.h:coda_unix_recv"]}
{"id": "C71", "title": "no descriptor leaks on error paths", "statement": "coda_listen, coda_accept, coda_connect, coda_fdopen, coda_mmap, coda_mkpidf and coda_random_init leave no descriptor open when they fail.", "quantifier": "all combinations of system call failures", "why_tests_cant": "failure injection at every call", "anchors": ["coda/socket.h:coda_listen", "coda/socket.h:coda_accept", "coda/socket.h:coda_connect", "coda/system.c:coda_fdopen", "coda/system.c:coda_mmap", "coda/system.c:coda_mkpidf", "coda/random.c:coda_random_init"]}
{"id": "C72", "title": "pid file admits one owner", "statement": "For every interleaving of processes calling coda_mkpidf on one path (with owners calling coda_daemon_stop), at most one process is an owner at any time.", "quantifier": "all interleavings", "why_tests_cant": "schedules of open/flock/stat/write", "anchors": ["coda/system.c:coda_mkpidf", "coda/daemon.c:coda_daemon_stop"]}
{"id": "C73", "title": "mkpath creates every parent directory and restores its argument", "statement": "coda_mkpath issues mkdir for exactly the proper '/'-terminated prefixes in order, stops at the first error other than EEXIST, and leaves the path buffer unchanged.", "quantifier": "all paths and system call results", "why_tests_cant": "universal over paths", "anchors": ["coda/system.c:coda_mkpath"]}
{"id": "C74", "title": "signals set exactly their flag", "statement": "After coda_signal_init every handled signal sets exactly the flag documented for it, and no signal clears a flag.", "quantifier": "all sequences of signals", "why_tests_cant": "all histories", "anchors": ["coda/daemon.c:coda_signal_handle", "coda/daemon.c:coda_signal_init"]}
{"id": "C75", "title": "log level names", "statement": "log_levels maps each documented level name, in any letter case, to its level, every other string to info, and never reads past the terminator.", "quantifier": "all strings", "why_tests_cant": "universal", "anchors": ["coda/logger.c:log_levels"]}
{"id": "C76", "title": "txml loads what the document says", "statement": "Loading a document whose elements mirror the declared members fills the object with exactly the document's values: strings verbatim, repeated elements appended to lists in order; the way expat splits character data does not matter.", "quantifier": "all schemas, all matching documents and all chunkings", "why_tests_cant": "arbitrary nesting", "anchors": ["coda/txml.cpp:begelement", "coda/txml.cpp:endelement", "coda/txml.hpp:determineMember", "coda/txml.hpp:setValue"]}
{"id": "C77", "title": "txml booleans", "statement": "setValue(bool&) maps true/on/yes and every non-zero integer to true, and false/off/no/zero/empty to false, ignoring case; nothing but these words, their abbreviations and text starting with a non-zero integer is true.", "quantifier": "all strings", "why_tests_cant": "universal", "anchors": ["coda/txml.cpp:strtobool"]}
{"id": "C78", "title": "tone removal acts letter by letter", "statement": "On well-formed UTF-8, coda_remove_tones_utf8 replaces each Vietnamese letter by its base ASCII letter of the same case, drops combining marks U+0300..U+036F, keeps every other code point byte for byte, is idempotent and never lengthens the text; it never reads outside the input for arbitrary bytes.", "quantifier": "all byte strings / all code point sequences", "why_tests_cant": "all code points in all positions, truncated tails", "anchors": ["coda/vietnam.cpp:coda_remove_tones_utf8"]}
{"id": "C79", "title": "url_unescape decodes every escape form", "statement": "coda_url_unescape maps '+' to a blank, %XX and \\\\xXX to the byte, %uXXXX to the UTF-8 encoding of a code point below U+0800 (other code points vanish), copies everything else, and zero-fills the rest of the buffer.", "quantifier": "all strings of the escape grammar whose result fits the buffer", "why_tests_cant": "arbitrary sequences of escapes of all kinds", "anchors": ["coda/url.cpp:coda_url_unescape"]}
{"id": "C80", "title": "url_preunescape keeps ASCII escapes", "statement": "coda_url_preunescape replaces exactly the escapes %XX and \\\\xXX of bytes >= 128 by the byte and copies the rest of the string verbatim.", "quantifier": "all strings whose result fits", "why_tests_cant": "arbitrary strings", "anchors": ["coda/url.cpp:coda_url_preunescape"]}
{"id": "C81", "title": "a process may die while it inserts", "statement": "When a process dies at any point inside insert (one key or a batch), every later call by any process is defined and the map behaves like the finite map in which a prefix of the batch was inserted; the key being inserted is added, not added, keeps a partly written value if it was there before, or costs one place of the map.", "quantifier": "all histories, all crash points, all later histories", "why_tests_cant": "every store of the insert is a crash point", "anchors": ["coda/shm_hash_map.tcc:unprotected_insert", "coda/shm_pool.tcc:allocate"]}
{"id": "C82", "title": "a process may die elsewhere", "statement": "When a process dies inside erase, clear or the first connect, the others can go on using the map.", "quantifier": "all histories, all crash points, all later histories", "why_tests_cant": "crash points between two stores", "anchors": ["coda/shm_hash_map.tcc:unprotected_erase", "coda/shm_hash_map.tcc:clear", "coda/shm_hash_map.tcc:attach", "coda/shm_pool.tcc:free", "coda/shm_stack.tcc:push"]}
{"id": "C83", "title": "a segment keeps its parameters", "statement": "A process that connects with another number of objects, number of buckets or value size than the segment was created with gets an exception and leaves the segment unchanged.", "quantifier": "all parameters and all histories of the segment", "why_tests_cant": "universal over parameters and histories", "anchors": ["coda/shm_hash_map.tcc:attach"]}
{"id": "C84", "title": "the shared queue survives the death of a process", "statement": "If a process dies at any point of flush or unflush, the later calls of the other processes stay inside the segment, deliver only stored boxes, and every stored box is eventually announced to a reader.", "quantifier": "all interleavings and all points of death", "why_tests_cant": "a process must die between two particular stores", "anchors": ["coda/shm_queue.tcc:flush", "coda/shm_queue.tcc:unflush"]}
{"id": "C85", "title": "every queue size accepted by connect works", "statement": "For every box size and number of boxes with which connect succeeds, flush and unflush stay inside the segment.", "quantifier": "all 32-bit box sizes and box counts", "why_tests_cant": "needs sizes whose product overflows", "anchors": ["coda/shm_queue.tcc:connect_shm", "coda/shm_queue.tcc:flush"]}
{"id": "C86", "title": "string storage enumeration reports every key once", "statement": "string_storage_enumerate never reads or writes outside its buffers, and calls the callback exactly once for every key added, with the text of the key and its slot.", "quantifier": "all histories of adds and user data writes", "why_tests_cant": "the tree of shared prefixes depends on the whole history of insertions", "anchors": ["coda/stringstorage.c:string_storage_enumerate", "coda/stringstorage.c:string_storage_enumerate_recursive"]}
{"id": "C87", "title": "string storage user data is kept", "statement": "The user data bytes behind a pointer returned by string_storage_add are zero at first and afterwards exactly what was last stored through such a pointer, whatever other keys are added or written meanwhile.", "quantifier": "all histories of adds and writes, all user data sizes", "why_tests_cant": "interference between slots depends on the whole history", "anchors": ["coda/stringstorage.c:string_storage_add", "coda/stringstorage.c:internal_find_add"]}
{"id": "C88", "title": "a fresh log_array is zero", "statement": "Every bucket of a newly constructed log_array of an arithmetic element type reads as zero before anything is stored.", "quantifier": "all arithmetic element types, bucket counts and values", "why_tests_cant": "an uninitialised read often happens to see zero", "anchors": ["coda/log_array.hpp:log_array_value_holder", "coda/log_array.hpp:log_array"]}
{"id": "C89", "title": "socket timeouts are those asked for", "statement": "coda_set_socket_timeout gives the kernel a valid timeval of exactly the microseconds asked for.", "quantifier": "all timeouts", "why_tests_cant": "the range of the argument", "anchors": ["coda/socket.h:coda_set_socket_timeout"]}
{"id": "C90", "title": "ports are those asked for", "statement": "The port text given to the socket functions ends up in the address as that number in network byte order, and text that is not a port number is refused.", "quantifier": "all port strings", "why_tests_cant": "all strings, including numbers out of range", "anchors": ["coda/socket.h:coda_listen", "coda/socket.h:coda_connect"]}
{"id": "C91", "title": "fdopen puts the file where it was asked for", "statement": "When coda_fdopen(fd, path, flags) succeeds, the file is open as fd whatever was open there before, no other descriptor changes, and the result is fd.", "quantifier": "all descriptor tables, all answers of the kernel", "why_tests_cant": "failures of every system call in every combination", "anchors": ["coda/system.c:coda_fdopen"]}
{"id": "C92", "title": "a detached process has no terminal streams", "statement": "When coda_daemon_fork returns 0 in the child, a new session was made, standard input and output are /dev/null and no other descriptor has changed; when it fails it returns -1.", "quantifier": "all descriptor tables, all answers of the kernel", "why_tests_cant": "failures of every system call in every combination", "anchors": ["coda/daemon.c:coda_daemon_fork"]}
{"id": "C93", "title": "log_create is all or nothing", "statement": "When log_create succeeds, stderr is the log file opened for appending, the directories above it were made before it, and the level is the new one; when it fails the level is the old one.", "quantifier": "all paths, levels and answers of the kernel", "why_tests_cant": "failures of every system call in every combination", "anchors": ["coda/logger.c:log_create"]}
{"id": "C94", "title": "daemon start-up is ordered", "statement": "coda_daemon_load installs the signal handlers first, detaches only when asked to, and writes the pid file last, in the process that goes on; a failing step stops it with -1.", "quantifier": "all options and all answers of the kernel", "why_tests_cant": "failures of every system call in every combination", "anchors": ["coda/daemon.c:coda_daemon_load"]}
{"id": "C95", "title": "mapping a file is all or nothing", "statement": "When coda_mmap returns 0 there is exactly one mapping more, of the size reported, and no descriptor is left open; when it fails there is no new mapping. A file can be mapped for reading with a given size.", "quantifier": "all sizes, flags, files and answers of the kernel", "why_tests_cant": "failures of every system call in every combination", "anchors": ["coda/system.c:coda_mmap"]}
{"id": "C96", "title": "signal masks select exactly the listed signals", "statement": "coda_signal_mask(how, mask) hands the kernel exactly the handled signals whose bit is set in the mask, each once, and never a signal that reports a program error.", "quantifier": "all 32-bit masks", "why_tests_cant": "2^32 masks", "anchors": ["coda/daemon.c:coda_signal_mask"]}
{"id": "C97", "title": "the last option wins", "statement": "coda_getopt_parse returns 0 iff every option is known, and then each setting is that of the last option that concerns it, with the documented defaults when there is none.", "quantifier": "all sequences of options", "why_tests_cant": "arbitrary sequences of options", "anchors": ["coda/daemon.c:coda_getopt_parse"]}
{"id": "C98", "title": "a socket that is returned is set up", "statement": "When coda_listen, coda_accept or coda_connect returns a descriptor, every step of the set-up was carried out in order on that descriptor and succeeded (for a connection it may be in progress), and the descriptor has the blocking mode asked for.", "quantifier": "all arguments and all answers of the kernel", "why_tests_cant": "failures of every system call in every combination", "anchors": ["coda/socket.h:coda_listen", "coda/socket.h:coda_accept", "coda/socket.h:coda_connect"]}
{"id": "C99", "title": "a pid file without owner can be taken", "statement": "When no process owns the pid file, whatever happened before (deaths, failed attempts), a process that calls coda_mkpidf undisturbed becomes its owner.", "quantifier": "all histories", "why_tests_cant": "all histories of deaths and failures", "anchors": ["coda/system.c:coda_mkpidf", "coda/daemon.c:coda_daemon_stop"]}
{"id": "C100", "title": "txml integers", "statement": "An integer member takes the value of decimal text that is in its range, and holds a value of its range whatever the text.", "quantifier": "all texts and all integer member types", "why_tests_cant": "universal over texts", "anchors": ["coda/txml.cpp:setValue"]}
{"id": "C101", "title": "any document is safe", "statement": "Loading any document, whether or not it mirrors the declared members and however much of it is reported before a parse error, neither reads nor writes outside the object and leaves a well-formed object.", "quantifier": "all schemas (distinct member names, no lists of lists), all event sequences", "why_tests_cant": "documents come from outside and nest arbitrarily", "anchors": ["coda/txml.cpp:begelement", "coda/txml.cpp:endelement", "coda/txml.hpp:determineMember", "coda/txml.hpp:setValue"]}
{"id": "C102", "title": "freeing a string storage releases everything", "statement": "string_storage_free releases every block the storage allocated, each exactly once, and no other, whatever sequence of additions, look-ups and writes came before.", "quantifier": "all sequences of operations, all initial heaps, and all choices of realloc to move a block or not", "why_tests_cant": "leaks and double frees depend on the whole history of node splits", "anchors": ["coda/stringstorage.c:string_storage_free", "coda/stringstorage.c:string_storage_add"]}
{"id": "C103", "title": "a failed addition leaves the string storage usable", "statement": "When string_storage_add reports failure because memory is exhausted, the keys stored before are still found, later additions work, and freeing the storage releases everything.", "quantifier": "all histories, all allocation requests that may be refused, and all choices of realloc to move a block or not", "why_tests_cant": "every allocation of every history can fail", "anchors": ["coda/stringstorage.c:string_storage_add", "coda/stringstorage.c:string_storage_free"]}
{"id": "C104", "title": "codecs own their memory", "statement": "The base 58 and base 64 functions release every block they allocate exactly once, except the one they return through *out; on failure they return none.", "quantifier": "all inputs (valid or not), initial heaps and outcomes of each allocation", "why_tests_cant": "inputs times allocation failures", "anchors": ["coda/base58.c:coda_base58_encode", "coda/base58.c:coda_base58_decode", "coda/base58.c:coda_base58_encode_alloc", "coda/base58.c:coda_base58_decode_alloc", "coda/base64.c:coda_base64_encode_alloc", "coda/base64.c:coda_base64_decode_alloc"]}
{"id": "C105", "title": "loading files and texts", "statement": "load_from_file and load_from_string give the parser exactly the contents of the file or text, whatever its size, mark the last piece and no other as the last, close the file and free the parser on every path, report every failure to open, read or parse, and leave a well-formed object; a file and a text with the same document give the same object.", "quantifier": "all contents, all reads that may fail, all documents, every incremental parser that understands the documents", "why_tests_cant": "sizes around multiples of the buffer, failures at every point", "anchors": ["coda/txml.cpp:load_from_file", "coda/txml.cpp:load_from_string", "coda/txml.cpp:txml_parser", "coda/txml.cpp:parse"]}
{"id": "C106", "title": "the life of a shared map object", "statement": "Whatever sequence of connect, disconnect and uses is applied to a shared map, and whatever the kernel answers: no call crashes, the lock is free after each call, a successful connect leaves the map connected to an attached segment, disconnect makes it as new (so that it can be connected again), and disconnect and the destructor detach every segment.", "quantifier": "all call sequences on one object, all answers of ftok, semget, semctl, semop, shmget, shmat, shmdt", "why_tests_cant": "failures at every call of every history", "anchors": ["coda/shm_hash_map.tcc:connect", "coda/shm_hash_map.tcc:connect_sem", "coda/shm_hash_map.tcc:connect_shm", "coda/shm_hash_map.tcc:disconnect", "coda/shm_hash_map.tcc:detach"]}
{"id": "C107", "title": "the life of a shared queue object", "statement": "Whatever sequence of connect, disconnect and uses is applied to a shared queue, and whatever the kernel and the allocator answer: no call crashes, the process holds at most one segment and one buffer for the queue, nothing is freed twice, a failed connect can be repeated and leaves the lock free, and after the destructor nothing is attached or allocated.", "quantifier": "all call sequences on one object, all answers of the kernel and of operator new", "why_tests_cant": "failures at every call of every history", "anchors": ["coda/shm_queue.tcc:connect", "coda/shm_queue.tcc:connect_sem", "coda/shm_queue.tcc:connect_shm", "coda/shm_queue.tcc:disconnect", "coda/shm_queue.tcc:deallocate", "coda/shm_queue.tcc:~queue"]}
{"id": "C108", "title": "calls on a shared map come to an end", "statement": "Calls on a shared map never block each other for ever: as long as no new calls are made every schedule ends, whoever dies; while calls are going on some process can always do its next step; and when the processes have done all they can, every call has returned.  A process that waits to write gets in even while other processes go on reading.", "quantifier": "all numbers of processes, calls, schedules and points of death (in the calls C55 allows)", "why_tests_cant": "schedules; a deadlock or starvation shows only in some", "anchors": ["coda/shm_hash_map.tcc:lock_read_rw", "coda/shm_hash_map.tcc:lock_write_rw", "coda/shm_hash_map.tcc:unlock_read_rw", "coda/shm_hash_map.tcc:unlock_write_rw"]}
{"id": "C109", "title": "calls on a shared queue come to an end", "statement": "Calls on a shared queue never block each other for ever: as long as no new calls are made every schedule ends, whoever dies or is interrupted; and unless a process died between taking and releasing the lock or a lock call was interrupted, some process can always do its next step while calls are going on, and when the processes have done all they can every call has returned.", "quantifier": "all numbers of processes, calls, schedules, sizes of queue and box", "why_tests_cant": "schedules; a deadlock shows only in some", "anchors": ["coda/shm_queue.tcc:flush", "coda/shm_queue.tcc:unflush", "coda/shm_queue.tcc:lock_queue", "coda/shm_queue.tcc:unlock_queue"]}
{"id": "C110", "title": "log lines are well formed and sort by time", "statement": "A message is written exactly when its level is enabled.  The line has the local date and time to the millisecond in fields of fixed width, the level, the thread and the message; a message without line breaks is one line; lines of a log sort by time; and the macros can be used as single statements.", "quantifier": "all messages, levels, thread names, times and offsets of the local clock", "why_tests_cant": "every time and text; the wrong order shows only on some days", "anchors": ["coda/logger.h:log_fmt", "coda/logger.h:LOG_FORMAT", "coda/logger.h:log_msg", "coda/logger.h:log_err", "coda/logger.h:log_die"]}
{"id": "C111", "title": "thread names belong to their thread", "statement": "log_thread_name_get returns the name that the calling thread set last, or NULL, whatever other threads and other users of thread-specific data do, and naming a thread never disturbs the thread-specific data of others.", "quantifier": "all histories of calls by any number of threads, all answers of the system", "why_tests_cant": "interleavings; exhaustion of keys", "anchors": ["coda/logger.c:log_thread_name_set", "coda/logger.c:log_thread_name_get", "coda/logger.c:log_thread_name_key"]}
{"id": "C112", "title": "exceptions carry the formatted text", "statement": "what() of a coda_error is the formatted text, cut to 4095 bytes, and is always a terminated string; coda_errno adds the number and the text of the error; the text of an error number is found in both variants of strerror_r.", "quantifier": "all texts and error numbers", "why_tests_cant": "unbounded texts; failures of vsnprintf", "anchors": ["coda/error.hpp:coda_error", "coda/error.hpp:coda_errno", "coda/error.h:coda_strerror_r"]}
{"id": "C113", "title": "the signal functions install the handler", "statement": "When coda_signal_init or coda_signal_init_norestart returns 0, exactly the documented signals have the handler of the library and do or do not resume system calls; any number of signals after that only set the flags; on failure it returns -1 and the rest of the signals are as before.", "quantifier": "all previous actions, all answers of the system, all sequences of signals", "why_tests_cant": "all previous actions and histories", "anchors": ["coda/daemon.c:coda_signal_init", "coda/daemon.c:coda_signal_init_norestart"]}
{"id": "C114", "title": "signals may arrive at any moment", "statement": "A signal that arrives at any point of the program, also within the logger or the handler of another signal, sets its flag, and the program goes on.", "quantifier": "all programs, all moments of arrival of any number of signals", "why_tests_cant": "moments of arrival; a self-deadlock shows only at some", "anchors": ["coda/daemon.c:coda_signal_handle", "coda/logger.h:log_fmt"]}
{"id": "C115", "title": "estimate_capacity tells the memory held", "statement": "estimate_capacity of a value is the memory that the value occupies, including the blocks that belong to it.", "quantifier": "all numbers, pointers, vectors and strings, nested to any depth", "why_tests_cant": "unbounded sizes and nesting", "anchors": ["coda/estimate_capacity.hpp:estimate_capacity"]}
{"id": "C116", "title": "floating-point members hold the number in the document", "statement": "A member of type float, double or long double that is loaded from a document gets the value of its type nearest to the number written there (ties to even), infinities and not-a-numbers included, whatever the rest of the text; the result depends on the document only.", "quantifier": "all numerals (decimal and hexadecimal, any length and exponent), all texts, the three types, all locales", "why_tests_cant": "unboundedly many numerals; rounding errors show only for rare inputs; the locale is part of the environment", "anchors": ["coda/txml.cpp:setValue"]}
{"id": "C117", "title": "command lines mean what the usage text says", "statement": "coda_getopt_parse accepts exactly the command lines made up of the documented options (one letter alone or in groups, long names and their abbreviations, arguments joined or separate) in any order among the operands and an optional --; each setting is then that of the last option that concerns it, the operands stand at the end of the array in their order from optind on, and no argument is lost. Every other command line gives -1. The array is never read outside its bounds.", "quantifier": "all arrays of arguments of any length and contents, with and without POSIXLY_CORRECT", "why_tests_cant": "unboundedly many command lines and permutations", "anchors": ["coda/daemon.c:coda_getopt_parse"]}
{"id": "C118", "title": "parsing a command line again gives the same options", "statement": "Calling coda_getopt_parse a second time with the same arguments gives the same options.", "quantifier": "all command lines", "why_tests_cant": "unboundedly many command lines; hidden state of libc", "anchors": ["coda/daemon.c:coda_getopt_parse"]}
{"id": "C119", "title": "a queue call that throws leaves the queue usable", "statement": "When copying an element or getting memory throws inside add, get or get_all of the thread-safe queue, the exception reaches the caller, no element is lost, and the other threads and later calls go on as before.", "quantifier": "all element types and numbers of threads, all schedules, every call that throws at any of the statements that can", "why_tests_cant": "every interleaving and every point of failure", "anchors": ["coda/synque.hpp:synque"]}
{"id": "C120", "title": "a set that fails leaves the cache usable", "statement": "When storing a value in the cache throws (no memory, a throwing assignment), the cache afterwards holds the entries it held before, or those without the entry of that key; later calls work, the accounted size is that of the entries held, and the limit is respected.", "quantifier": "all histories of get, set and erase, any of which may throw at any statement that can; all sizes, limits and times", "why_tests_cant": "unboundedly many histories and points of failure; the damage shows only in later calls", "anchors": ["coda/cache.tcc:cache"]}
{"id": "C121", "title": "text can be decoded where it stands", "statement": "coda_base64_decode and web64_decode give the same result when the result is written over the text, or anywhere that does not start above the text in memory, as with separate buffers, and change no other byte.", "quantifier": "all memories, positions, texts and capacities with out <= in, overlapping in any way", "why_tests_cant": "every overlap and every text; a wrong order of reads and writes shows only for some offsets", "anchors": ["coda/base64.c:coda_base64_decode", "coda/web64.c:web64_decode"]}
{"id": "C122", "title": "URL text can be decoded where it stands, and encoded only towards lower addresses", "statement": "coda_urldec into a buffer that overlaps the text and does not start above it (in place included) writes what the text means and a NUL, and changes no other byte; one byte of room for the NUL is all it needs. coda_urlenc may overlap as long as the encoded text does not end behind the text; then it writes the encoding and a NUL and nothing else. Encoding in place a text that has to grow does not give its encoding.", "quantifier": "all memories, positions, texts and lengths, overlapping in any way", "why_tests_cant": "every overlap and every text; a wrong order of reads and writes shows only for some offsets", "anchors": ["coda/url.cpp:coda_urldec", "coda/url.cpp:coda_urlenc"]}
{"id": "C123", "title": "URL objects work for texts of any length", "statement": "create_absolute and create_relative build the normal form of the text they are given, and copies are equal to their original, whatever the lengths. (The lengths are 32-bit fields: it holds as long as no length or sum reaches 2^32; of a text of 2^32 bytes and more only the first sz mod 2^32 bytes count, and a copy of a URL whose text and domain take 2^32 - 2 bytes or more is unreadable.)", "quantifier": "all texts of all lengths, parents, flags, initial memories; all histories of copies and assignments", "why_tests_cant": "texts of 4 GB are never tried", "anchors": ["coda/url_parser.hpp:coda_url", "coda/url_parser.cpp:create_absolute", "coda/url_parser.cpp:create_relative", "coda/url_parser.cpp:operator="]}
{"id": "C124", "title": "a URL call that gets no memory says so", "statement": "when malloc fails, create_absolute and create_relative return -1 and leave the object empty, and a copy is empty. (False: every call that needs the block writes through a null pointer; only calls that need none return.)", "quantifier": "all arguments and objects", "why_tests_cant": "malloc does not fail in tests", "anchors": ["coda/url_parser.cpp:create_absolute", "coda/url_parser.cpp:create_relative", "coda/url_parser.cpp:coda_url", "coda/url_parser.cpp:operator="]}
{"id": "C125", "title": "the pointer returned by the cache stays good while the entry is in the cache", "statement": "The pointer that get returns shows the value stored last under that key as long as the entry stays in the cache, whatever else is stored, looked up, erased or evicted meanwhile. From the moment the entry is erased, evicted, or found expired by a get, the pointer dangles, even if the key is stored again. A value may be passed to set where it lies in the cache.", "quantifier": "all histories before and after the get, all keys, sizes and times", "why_tests_cant": "unboundedly many histories; a dangling pointer often still shows the old value", "anchors": ["coda/cache.tcc:get", "coda/cache.tcc:set", "coda/cache.tcc:drop_last_unused"]}
{"id": "C126", "title": "a copy of a cache is a cache of its own", "statement": "After copying a cache the two can be used, and destroyed, independently. (False: the copy keeps pointers into the original as soon as there is an entry; only empty caches can be copied, and look-ups of unexpired entries work.)", "quantifier": "all histories of the original, all further calls", "why_tests_cant": "works for an empty cache, and often appears to work otherwise: the damage is a write to freed memory", "anchors": ["coda/cache.hpp:coda_cache"]}
{"id": "C127", "title": "the report of the cache is right", "statement": "dbg appends the number of entries, their total size and the limits, and if asked one line for each entry, the oldest first, with its key, size and time. (False of the line time_max, which shows the clock less the limit.)", "quantifier": "all histories, all texts before, all clocks", "why_tests_cant": "unboundedly many histories; the listing walks the internal links", "anchors": ["coda/cache.tcc:dbg"]}
{"id": "C128", "title": "what was just added to the string storage is found", "statement": "Whatever was added before: after an add, find of the same key gives the same slot, also after user data was stored; adding it again gives that slot and changes nothing. Every add gives either what find gave before, and then changes nothing, or a slot never given before. The enumeration reports every slot ever given exactly once.", "quantifier": "all histories of adds and writes of user data, all keys that fit a block (also those that collide or get lost later)", "why_tests_cant": "unboundedly many histories; the keys for which the tree goes wrong are exactly those tests do not use", "anchors": ["coda/stringstorage.c:string_storage_add", "coda/stringstorage.c:string_storage_find", "coda/stringstorage.c:string_storage_enumerate"]}
{"id": "C129", "title": "listening and connecting use the address that was asked for", "statement": "coda_listen binds to, and coda_connect connects to, exactly the IPv4 address and the port in their two texts; the calls made on the way use no other address, and whatever call fails the result is -1. (Proved for dotted quads without leading zeros and ports of digits below 65536. False otherwise: a host that is no address is taken for 255.255.255.255, and numbers with leading zeros are octal here but decimal in coda_inet_addr.)", "quantifier": "all hosts, ports, backlogs, modes and answers of the system", "why_tests_cant": "every text and every answer; a wrong byte order or a wrong structure still gives a socket", "anchors": ["coda/socket.h:coda_listen", "coda/socket.h:coda_connect", "coda/socket.h:coda_inet_addr"]}
{"id": "C130", "title": "running out of memory leaves strings, sets and maps in a sound state", "statement": "If a string, set or map function ends with an exception because memory runs out, a string is what it was before; a set holds what it held and the first of the pieces; a map holds what it held and the first of the fields; nothing is leaked. (False: a buffer of 32768 bytes or more is leaked by the bounded append and insert, and the map may hold one further key with an empty value.)", "quantifier": "all texts, all previous contents, all points at which memory runs out", "why_tests_cant": "memory must run out at every single point in turn", "anchors": ["coda/string.cpp:coda_strappend", "coda/string.cpp:coda_strnappend", "coda/string.cpp:coda_strnprintf", "coda/string.cpp:coda_get_stringset", "coda/string.cpp:coda_get_uint64set", "coda/url.cpp:coda_get_params_buf", "coda/url.cpp:coda_get_header_buf"]}
{"id": "C131", "title": "a shared hash map may be changed while iterating over it", "statement": "A loop over the iterators of a shared hash map that erases entries or inserts further ones sees every entry that was there at the start exactly once, each with its value at that moment, erases exactly what it wants to, ends, and leaves a map on which all later calls work. (True of loops that move the iterator on before they erase, and of loops that insert. False of loops that erase the entry under the iterator and then move on: they skip the rest of its bucket.)", "quantifier": "all histories before and after, all table sizes, all choices of what to erase and what to insert", "why_tests_cant": "what is skipped depends on which keys share a bucket and on the order of all earlier insertions", "anchors": ["coda/shm_hash_map.hpp:const_iterator", "coda/shm_hash_map.tcc:unprotected_erase", "coda/shm_hash_map.tcc:unprotected_insert"]}
{"id": "C132", "title": "an exception during the load of a document leaves nothing behind but a sound object", "statement": "If memory runs out, or determine throws, anywhere while a document is loaded, the exception reaches the caller, the file is closed and the parser freed. The object is well formed; it is what loading the same document makes of it on the way, with the values stored at one point of the document possibly stored in part; and it can be loaded again. A load that returns did everything. (Loading is not all or nothing: a list may be left with an item that is still empty.)", "quantifier": "all documents, contents of files, read errors, object types and objects, all sets of points that throw", "why_tests_cant": "memory must run out at every single point of every document", "anchors": ["coda/txml.cpp:load_from_file", "coda/txml.cpp:load_from_string", "coda/txml.cpp:begelement", "coda/txml.cpp:endelement", "coda/txml.cpp:characters", "coda/txml.hpp:setValue", "coda/txml.hpp:determineMember"]}
{"id": "C133", "title": "a thread-safe queue may be destroyed when everything was received", "statement": "Once no get, size or signal is in progress and as many elements have been received as add was called with, the queue can be destroyed: no thread is inside any of its functions any more, not even in an add that was not yet seen to return. (Not once it was merely seen empty, and not while a get waits.)", "quantifier": "all schedules of any number of threads, all sequences of calls", "why_tests_cant": "the window between the arrival of an element and the end of the add that sent it is a few instructions wide", "anchors": ["coda/synque.hpp:~synque", "coda/synque.hpp:add", "coda/synque.hpp:get"]}
{"id": "C134", "title": "data and its base64 text may overlap if the text is far enough below", "statement": "Data can be encoded to base64 or web64 text that overlaps it, if the text starts at least a third of the length of the data below the data, or at its end or above: the text is that of separate buffers, cut off at outlen and terminated if there is room, and no other byte changes. (One byte less is not enough, and nothing can be encoded where it stands.)", "quantifier": "all data, lengths, capacities and distances", "why_tests_cant": "every distance and every length; a smaller distance goes wrong only for some data", "anchors": ["coda/base64.c:coda_base64_encode", "coda/web64.c:web64_encode"]}
{"id": "C135", "title": "queries, headers and lists that were put together are read back", "statement": "A query put together from any keys and values with the encoders is parsed to the encoded form of the last value of each key, which decodes to that value, and changes no other entry. Header lines, comma separated sets of texts and of numbers, and joined pieces are read back as they were written. (False of the set that holds only the empty text, which is read as the empty set, and of the empty set of numbers.)", "quantifier": "all lists of keys, values, texts and numbers of any length, all earlier contents of the map or set", "why_tests_cant": "every byte in every key and value, repeated keys, empty pieces", "anchors": ["coda/url.cpp:coda_get_params", "coda/url.cpp:coda_urlenc", "coda/url.cpp:coda_urlenc_noplus", "coda/url.cpp:coda_urldec", "coda/url.cpp:coda_get_header", "coda/string.cpp:coda_get_stringset", "coda/string.cpp:coda_get_uint64set", "coda/string.cpp:coda_split_string"]}
{"id": "C136", "title": "the shared map and queue work on processors that delay stores", "statement": "Calls on a shared map and on a shared queue have the same results, and the segment ends up with the same contents, whether the processors store at once or delay and reorder their stores. No process reads or changes the segment while another one changes it, and no thread touches the elements of a thread-safe queue while another one does. So the guarantees of the map and of the queue hold on such processors, too. (Of the queue as long as no semaphore call is interrupted; the semaphores must wait for the stores, and they do.)", "quantifier": "all schedules of any number of processes and threads, all calls, all deaths, all delays and orders of stores to different addresses", "why_tests_cant": "a delayed store shows only on some processors and in a window of nanoseconds", "anchors": ["coda/shm_hash_map.tcc:lock_write_rw", "coda/shm_hash_map.tcc:unlock_write_rw", "coda/shm_queue.tcc:lock_queue", "coda/shm_queue.tcc:unlock_queue", "coda/synque.hpp:add", "coda/synque.hpp:get"]}
{"id": "C137", "title": "the first connect to a shared queue is race free", "statement": "Any number of processes may connect to a shared queue at the same time, some of them as the first ones: the segment is set up once, by one of them, before any of the others uses it; nobody is ever inside together with another one; and the count of the boxes is right. (False when the semaphores do not exist yet: two creators reset the lock while it is held; a creator resets the count after it freed the lock, so a box may be lost for good; a creator that dies in between leaves a lock that nobody gets, or a segment on which every later connect crashes. True when the set of semaphores exists; exclusion also when one process creates it.)", "quantifier": "all schedules of any number of connecting, writing and reading processes, all deaths", "why_tests_cant": "the window is a few system calls wide and opens once in the life of the queue", "anchors": ["coda/shm_queue.tcc:connect", "coda/shm_queue.tcc:connect_sem", "coda/shm_queue.tcc:connect_shm", "coda/shm_queue.tcc:lock_queue"]}
{"id": "C138", "title": "the flags and the timeout of unflush do what they say", "statement": "unflush waits for the given number of microseconds. Called with SEM_UNDO, it gives the ticket of a process back that dies before it has its box, and the count stays right whoever exits. (False: when a process exits the kernel gives back every ticket the process ever took with the flag, so that the count promises boxes that do not exist, and a reader receives a box nobody stored; negative timeouts are refused by the kernel, also when there are boxes.)", "quantifier": "all timeouts, all schedules of any number of processes, all calls with and without the flag, all exits", "why_tests_cant": "the effect shows in other processes, after the exit of the one that used the flag", "anchors": ["coda/shm_queue.tcc:unflush", "coda/shm_queue.hpp:unflush"]}
{"id": "C139", "title": "items put into a shared queue arrive once and in order", "statement": "Several processes share one queue, some only put items and flush, the others only unflush and get. As long as no flush finds the queue full, every item that put accepted and a flush sent is returned by get exactly once, to one reader; the items of one writer that reach one reader arrive in the order they were put; boxes are received in the order they were stored. A box is lost only when its flush found the queue full.", "quantifier": "all numbers of processes, item types whose deserialiser refuses zeros, box and queue sizes, and all interleavings of the calls without interrupted semaphore operations and without deaths inside a locked section", "why_tests_cant": "the number of interleavings of many writers and readers is unbounded; a loss or a duplicate shows up only for particular schedules", "anchors": ["coda/shm_queue.tcc:put", "coda/shm_queue.tcc:get", "coda/shm_queue.tcc:flush", "coda/shm_queue.tcc:unflush", "coda/shm_queue.hpp:current_box"]}
{"id": "C140", "title": "the random generator is seeded once", "statement": "coda_random_init may be called from any number of threads: a call that returns 0 leaves a seeded generator, only one call seeds it, with a whole number read from the device, and later calls leave the sequence alone; a call that fails does not touch the generator. (False in parts: calls that run at the same time may each seed the generator, so that a sequence already begun is abandoned; a short read of the device is not noticed and the seed contains bytes that were never written.)", "quantifier": "all numbers of threads, all interleavings of their calls, all results of open and read", "why_tests_cant": "seeding twice takes two first calls at the same moment; a short read cannot be provoked", "anchors": ["coda/random.c:coda_random_init", "coda/random.h:coda_random"]}
{"id": "C141", "title": "no log message is lost when the log is rotated", "statement": "log_create and log_rotate may be called while other threads log: every piece of every message is written exactly once, in order, to some file, and descriptor 2 is never found closed; no descriptor is left over; once a call has returned, everything logged afterwards goes to the file that its path named and the level is the one given; a message is in one file. (False in parts: when calls overlap, the log may go on into a file that has been renamed although a later call has returned, and a rotation undoes a level set meanwhile; a message that needs two writes may be split over two files.)", "quantifier": "all numbers of threads, all interleavings of their system calls, all renames and removals by other processes, all failures of system calls but a failing write", "why_tests_cant": "a loss or a misdirected message needs a rotation between two system calls of another thread", "anchors": ["coda/logger.c:log_create", "coda/logger.h:log_rotate", "coda/logger.h:log_fmt", "coda/system.c:coda_fdopen", "coda/system.c:coda_fdmove"]}
{"id": "C142", "title": "log_create uses the whole path, whatever other threads do", "statement": "A call of log_create makes exactly the directories of the path it was given, outermost first, and then opens exactly that path; the text of the path is read within its bounds and is unchanged when the calls have returned. (False in parts: calls that share the memory of the path disturb each other, because the text is cut at every slash for a moment: a call may open a file where the directory should be; an empty path is read beyond its end.)", "quantifier": "all paths, all numbers of threads, all interleavings of the steps of their calls, all failures of mkdir and open", "why_tests_cant": "the text is wrong only between two instructions around mkdir", "anchors": ["coda/logger.c:log_create", "coda/system.c:coda_mkpath", "coda/system.c:coda_fdopen"]}
{"id": "C143", "title": "a thread that waits for the thread-safe queue may be cancelled", "statement": "When a thread is cancelled (pthread_cancel) while it waits in get of the thread-safe queue, no element is lost and the calls of the other threads go on and return as before.", "quantifier": "all numbers of threads, all calls and schedules, every moment at which the cancellation can act", "why_tests_cant": "every interleaving and every moment of the cancellation; the damage shows only in the calls of other threads", "anchors": ["coda/synque.hpp:synque"]}
{"id": "C144", "title": "objects made with different files are separate", "statement": "Shared maps and queues whose processes name different files have nothing in common: what the users of one file do, see and wait for does not depend on the users of the other file.", "quantifier": "all numbers of processes and objects, all files, all schedules", "why_tests_cant": "every combination of files and every interleaving; a collision of keys shows only on some file systems", "anchors": ["coda/shm_hash_map.tcc:connect_sem", "coda/shm_hash_map.tcc:connect_shm", "coda/shm_queue.tcc:connect_sem", "coda/shm_queue.tcc:connect_shm"]}
{"id": "C145", "title": "a map and a queue may be named after one file", "statement": "A shared map and a shared queue that are connected with the same file name do not disturb each other: connecting either comes to an end while nobody uses the other, writers of the map are alone, and a reader of the queue receives only boxes that were stored.", "quantifier": "all numbers of processes, all parameters of the map and the queue, all schedules", "why_tests_cant": "every interleaving of the users of both; the two classes are tested each with its own file", "anchors": ["coda/shm_hash_map.tcc:lock_write_rw", "coda/shm_hash_map.tcc:lock_read_rw", "coda/shm_queue.tcc:lock_queue", "coda/shm_queue.tcc:unflush"]}
{"id": "C146", "title": "a shared map object may be copied", "statement": "A program may copy and assign shared map objects like values: a copy of a connected map is connected to the same map and goes on working whatever is then done to the object it was copied from (disconnect, another assignment, destruction), and no use of any object, copy or not, works on memory that is not attached.", "quantifier": "all programs that make, copy, assign, connect, use, disconnect and destroy any number of map objects in any order, all answers of the kernel", "why_tests_cant": "every order of the operations and every failure; a use of memory that is gone may go unnoticed", "anchors": ["coda/shm_hash_map.hpp:hash_map", "coda/shm_hash_map.tcc:disconnect", "coda/shm_hash_map.tcc:detach", "coda/shm_hash_map.tcc:~hash_map"]}
{"id": "C147", "title": "a shared queue object may be copied", "statement": "A program may copy and assign shared queue objects like values: every buffer is freed once, flush, unflush, put and get of a copy work only on memory that is there, and when all objects are destroyed the process holds no segment and no buffer of theirs.", "quantifier": "all programs that make, copy, assign, connect, use, disconnect and destroy any number of queue objects in any order, all answers of the kernel and of the allocator", "why_tests_cant": "every order of the operations and every failure; a double free may go unnoticed", "anchors": ["coda/shm_queue.hpp:queue", "coda/shm_queue.hpp:box", "coda/shm_queue.tcc:~queue", "coda/shm_queue.tcc:~box", "coda/shm_queue.tcc:disconnect"]}
{"id": "C148", "title": "a shared map holds values of any type size and alignment", "statement": "For a value type of any size and alignment the parts of a shared map (headers, free list, nodes, buckets) lie in the segment without overlap and inside the space that is asked for, every key, value and link lies at a multiple of its alignment, and programs that pass the comparison of the headers agree on where everything lies.", "quantifier": "all value types (size, alignment), all capacities and numbers of buckets whose sizes fit in int", "why_tests_cant": "every size and alignment; a value at a wrong address may work on one machine and trap on another", "anchors": ["coda/shm_hash_map.hpp:pair", "coda/shm_hash_map.hpp:node", "coda/shm_hash_map.tcc:attach", "coda/shm_hash_map.tcc:required_space", "coda/shm_pool.tcc:attach"]}
{"id": "C149", "title": "elements pass through a chain of thread-safe queues", "statement": "When threads pass elements from one thread-safe queue to the next (each thread gets from one queue, singly or in batches, and adds what it got to the next before it gets more), nothing is lost or doubled between the first and the last queue; the elements of each thread keep their order, and with one thread per stage all elements do; and when all these threads wait for more, everything that was put in has come out. With several threads in a stage all elements still come out in the order in which they were put in.", "quantifier": "all lengths of the chain, all numbers of threads in each stage, all calls of signal and size in between, all interleavings and spurious wake-ups", "why_tests_cant": "every interleaving of any number of threads over any number of queues", "anchors": ["coda/synque.hpp:add", "coda/synque.hpp:get", "coda/synque.hpp:signal"]}
{"id": "C150", "title": "the thread-safe queue publishes what was written before an element was added", "statement": "The element that is handed out k-th is the one that was added k-th, and everything the thread that added it did up to that call of add happens before everything the thread that got it does once it has it, in the sense of the POSIX and C++ memory models (order within a thread, and unlocking a mutex before it is locked): so data written before add need no further synchronisation to be read after get, also when elements are taken in batches or by a thread that slept.", "quantifier": "all numbers of threads, all sequences of calls, all interleavings and spurious wake-ups, all elements", "why_tests_cant": "what a thread sees of another thread's writes depends on the processor and the schedule; a test sees a few of them", "anchors": ["coda/synque.hpp:add", "coda/synque.hpp:get", "coda/synque.hpp:synque"]}
{"id": "C151", "title": "threads that serve a thread-safe queue can be stopped", "statement": "Threads that take elements in a loop end when they are told to: if each of them leaves its loop on an element that means stop and there is one such element for each, then, once nothing moves any more, all of them have ended and everything that was added before the first stop element was handed out. The same holds for a flag that is read before each get and set before signal() is called once for each thread, and for threads that take batches.", "quantifier": "all numbers of threads, all elements, all positions of the stop elements, all interleavings and spurious wake-ups", "why_tests_cant": "whether a thread misses its wake-up depends on the schedule; a test sees a few schedules", "anchors": ["coda/synque.hpp:signal", "coda/synque.hpp:get", "coda/synque.hpp:add"]}
{"id": "C152", "title": "a main loop over the signal flags misses no signal", "statement": "A program whose main loop ends when coda_terminate is set, and otherwise reads the other flags of the library, clears one that is set and then acts on it, and sleeps with coda_msleep, begins an action after every signal that asks for one, before it begins to sleep for the second time; it never acts without a signal, and at most once for each; after SIGINT or SIGTERM it sleeps at most once more; it never gets stuck. (The flag has to be cleared before the action: a loop that clears it afterwards can miss a signal for ever.)", "quantifier": "all sets of flags the loop looks at, all numbers, kinds and moments of arrival of signals, delivered to the thread of the loop or to another", "why_tests_cant": "signals arrive between any two steps, also between reading a flag and clearing it or going to sleep", "anchors": ["coda/daemon.c:coda_signal_handle", "coda/daemon.h:coda_terminate", "coda/gmtime.h:coda_msleep"]}
{"id": "C153", "title": "send and recv carry a stream unchanged", "statement": "When one side calls coda_unix_send again with what is left until all is sent, and the other calls coda_unix_recv until it has as many bytes as it wants, then what was received, what is on its way and what is left are at every moment together the data in order: nothing is lost, doubled or reordered, messages of known lengths keep their boundaries, a call that fails changes nothing and can be repeated.", "quantifier": "all data and lengths, all ways in which the kernel splits and delays them (at most 2^31-1 bytes per call), all interleavings, interruptions and failures", "why_tests_cant": "short counts and interruptions occur under load only", "anchors": ["coda/socket.h:coda_unix_send", "coda/socket.h:coda_unix_recv"]}
{"id": "C154", "title": "the command that starts a daemon tells whether it started", "statement": "When coda_daemon_load is to detach, the command that called it exits with success only when the daemon has started and its pid file is there; when the start fails, the command gets -1. Without detaching the command itself becomes the server.", "quantifier": "all options, all answers of the kernel to both processes, all schedules of the two", "why_tests_cant": "what fails, and when the daemon runs relative to the command that started it, differs from start to start", "anchors": ["coda/daemon.c:coda_daemon_load", "coda/daemon.c:coda_daemon_fork", "coda/system.c:coda_mkpidf"]}
