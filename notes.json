{
 "C04": "Refuted as stated: `a << n` silently drops the high bits instead of reporting an error. The partial theorem gives the exact result for every a and n (right shift exact; left shift reduced to 128 bits; bad amounts are errors).",
 "C05": "Refuted at a = -2^127 only: debug build panics, release build wraps. The partial theorem proves exactness for every other a.",
 "C20": "Refuted: `x = x;`, `x += 1;`, `for i in i`, a name assigned only in the other branch or in a rejected command pass the analyser. The partial theorem covers every read of a name not assigned (in text order) before it in any command of the session.",
 "C21": "Release builds never panic, for every session and environment. Debug builds: refuted (negating the minimum, casts near 2^64, very negative histogram values); the partial theorem says the only panics are arithmetic overflow checks. Stack and memory exhaustion are not modelled.",
 "C29": "Refuted for strings with quotes, backslashes or non-ASCII bytes (print escapes them). The partial theorem covers exactly the strings of printable characters and plain whitespace.",
 "C30": "Refuted for paths containing characters that get escaped. Otherwise the opened path is the written one; a failed open keeps the previous filesystem.",
 "C31": "Refuted: samples equal to the largest value are not counted when that value is 0 or plus or minus a power of two. Partial theorems: buckets are contiguous powers of two, and counting is exact when no sample equals the last bound.",
 "C32": "Refuted: a value above 2^125 makes printing loop forever. Partial: terminates whenever all values are at most 2^125.",
 "C33": "Refuted for bounds below -2^126. Partial: labels are exact and uniquely readable for all other bounds.",
 "C35": "Completeness and termination are proved for every kernel history (items may change between calls). Success is refuted: an item whose offset is 2^64-1 ending a batch yields an error; the partial theorem proves success when no such item occurs.",
 "C36": "Refuted: with all maxima at their limit only one ioctl is issued, so results beyond the first buffer are lost. Partial: everything is returned if it fits into the first answer.",
 "C39": "Refuted: addresses are taken modulo 2^64 and an end beyond 2^64 panics in debug builds. Partial: for addresses below 2^64 with a representable end.",
 "C40": "Everything but one case: a cast on a mounted filesystem with an address near 2^64 panics in debug builds before the kind is checked.",
 "C42": "Refuted for escaped quotes and newlines inside string literals. Partial: exact for texts without them.",
 "C44": "Refuted: the joined command is rejected by the parser. Partial: what is collected and when more input is requested.",
 "C45": "Refuted: a blank line reports a parse error. Partial: nothing else changes.",
 "C49": "Refuted for identifiers beginning with a reserved word (printer, truest, ...). Partial: all others, with exactly which those are.",
 "C52": "Refuted: an unexpected read error does not end the loop. All other parts are proved.",
 "C54": "Refuted for BTRFS_BALANCE_OBJECTID (4 instead of 2^64-4). All other constants proved against the kernel header values.",
 "C59": "Refuted for == and != (they distinguish a histogram from an equal plain array). Partial: every program without equality tests, by a simulation.",
 "C60": "Refuted for DIR_LOG_ITEM (60): the shipped definition tests the wrong key type. Partial: all other documented keys.",
 "C70": "Refuted: bytes after the part described by the definition are ignored without an error, for every definition but extent items (e.g. every name but the first of an INODE_REF item). Partial: what is shown determines the bytes that were read; fixed-size items of the right length and extent items are shown completely.",
 "C86": "Inside the buffer: proved for every answer. Alignment refuted: an item whose length is not a multiple of 8 misaligns the next header. The partial theorem says exactly when all references are aligned.",
 "C88": "Refuted as stated: strings are displayed without quotes (5 and the string 5), the histogram mark and the disk position of a structure are not shown. The partial theorems say exactly which values are displayed alike (looks_alike), for every value a session can compute; nothing else is ambiguous.",
 "C92": "Refuted when the tree has an item whose type no shipped struct is for: such items count in an answer but are not shown, so an array without elements is not the end. Partial: if all items from the first key on are of known types. The first four theorems have no such hypothesis."
}