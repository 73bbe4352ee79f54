(** The texts of the error messages. *)
From Verif Require Import Base Ast Structs Definitions Value.

(** The text after "Error: " (main.rs:98,133), [e.to_string()] of the error.  None: the text
    is made by the operating system (errno of the search request, fstatfs, mmap, a write) or
    by the parser library, and is not modelled. *)
Definition message (e : error) : option str :=
  let q s := s_ "'" ++ s ++ s_ "'" in
  let short s what have need :=
    s_ "Cannot interpret " ++ q (s_ "struct " ++ s) ++ s_ ", not enough bytes provided" ++ what
    ++ s_ " (" ++ dec_Z have ++ s_ " < " ++ dec_Z need ++ s_ ")" in
  match e with
  | EUnknownVariable x => Some (s_ "Unknown variable: " ++ x)                    (* eval.rs:61,647 semantics.rs:30 *)
  | EOverflow a op b => Some (dec_Z a ++ s_ " " ++ op ++ s_ " " ++ dec_Z b ++ s_ " overflows")   (* eval.rs:84..183 *)
  | EDivideByZero => Some (s_ "Divide by zero")                                  (* eval.rs:126,140 *)
  | ECannotAdd l r => Some (s_ "Cannot add types " ++ q l ++ s_ " and " ++ q r)  (* eval.rs:98 *)
  | EExpected what got => Some (s_ "Expected " ++ what ++ s_ ", got " ++ q got)  (* value.rs:48..96, eval.rs:257 *)
  | ETryFromInt => Some (s_ "out of range integral type conversion attempted")   (* std TryFromIntError *)
  | ENegativeBytenr n =>                                                         (* eval.rs:268-271 *)
    Some (s_ "Invalid bytenr (" ++ dec_Z n ++ s_ ") in type cast: must be non-negative")
  | ENoFilesystem =>                                                             (* eval.rs:301,368 *)
    Some (s_ "No filesystem set, set a filesystem first with 'filesystem ""/path""'")
  | EArity _ msg => Some msg                                                     (* eval.rs:316.. *)
  | ESearchKeyType =>                                                            (* eval.rs:350-354: no closing quote *)
    Some (s_ "Argument 2 of search() must be 'struct _btrfs_ioctl_search_key")
  | ENoKey => Some (s_ "Could not take 'keyof()' struct with no on-disk key")    (* eval.rs:432 *)
  | EFieldNotIdent => Some (s_ "Field in a field access must be an identifier")  (* eval.rs:475,655 semantics.rs:101 *)
  | EIndexOutOfRange i len =>                                                    (* eval.rs:488,671 *)
    Some (s_ "Index " ++ dec_Z i ++ s_ " out of range, length is " ++ dec_Z len)
  | ENoSuchField f s =>                                                          (* value.rs:409,424 *)
    Some (s_ "Failed to find field " ++ q f ++ s_ " in " ++ q (s_ "struct " ++ s))
  | ELhs msg => Some msg                                                         (* eval.rs:648.. *)
  | EForIdent => Some (s_ "Variable in for loop must be an identifier")          (* eval.rs:606 *)
  | EForTemp => Some (s_ "Temporary variable in a for-loop must be an identifier")   (* semantics.rs:154 *)
  | ENoLengthField f => Some (s_ "Did not find length field " ++ q f)            (* value.rs:296 *)
  | ENotEnoughBytes s what have need => Some (short s what have need)            (* value.rs:308..475 definitions.rs *)
  | EAnonymous msg => Some msg                                                   (* value.rs:340,369,498 *)
  | ENotStatic => Some (s_ "Reified DynamicStruct is not statically sized")      (* value.rs:383 *)
  | EUnknownInlineRef t => Some (s_ "Unknown btrfs_extent_inline_ref type: " ++ dec_Z t)   (* definitions.rs:896 *)
  | ELeftover => Some (s_ "Leftover data in btrfs_extent_item")                  (* definitions.rs:905 *)
  | EHistValue got =>                                                            (* value.rs:133-136 *)
    Some (s_ "Found invalid value " ++ q got ++ s_ " when printing histogram")
  | EHistPower what z =>                                                         (* value.rs:149,154 *)
    Some (s_ "Failed to find " ++ what ++ s_ " power 2 for " ++ dec_Z z)
  | EUtf8 => None                                                                (* never raised *)
  | EUnmountedSearch => Some (s_ "Cannot search() an unmounted filesystem")      (* fs.rs:180 *)
  | EIoctl => None                                                               (* fs.rs:205: errno *)
  | EShortRead msg => Some msg                                                   (* fs.rs:216,226 *)
  | EKeyOverflow => Some (s_ "Could not bump key.offset -- overflow detected")   (* fs.rs:275 *)
  | ECollisions n =>                                                             (* fs.rs:279-282 *)
    Some (s_ "Saw " ++ dec_Z n ++ s_ " identical payloads -- this should not be possible")
  | EGetBytes len => Some (s_ "Index out of range, max length is " ++ dec_Z len) (* fs.rs:295 *)
  | EMountedCast => Some (s_ "Cannot reinterpret bytes from mounted image")      (* fs.rs:296 *)
  | EOpen (OfNeither p) =>                                                       (* fs.rs:114-117 *)
    Some (p ++ s_ " is neither a mounted nor unmounted btrfs filesystem")
  | EOpen (OfNotBtrfs p) => Some (p ++ s_ " is not a btrfs filesystem")          (* fs.rs:123-127 *)
  | EOpen (OfNoMagic p) => Some (s_ "Failed to find valid superblock magic for: " ++ p)   (* fs.rs:151-155 *)
  | EOpen OfSystem => None
  | EWrite => None                                                               (* eval.rs:532,748,806 *)
  | EUnknownType s => Some (s_ "Unknown type: struct " ++ s)                     (* semantics.rs:80 *)
  | EBadCastType => Some (s_ "Invalid type in type cast")                        (* semantics.rs:88 *)
  | EJumpOutsideLoop jump => Some (s_ "Cannot " ++ q jump ++ s_ " outside of a loop")   (* semantics.rs:221 *)
  | EFilesystemArg => Some (s_ "'filesystem' builtin only takes string literal arguments")   (* semantics.rs:230 *)
  | EParse => None                                                               (* pom's error text, runtime.rs:30 *)
  | EUnhandledControlFlow => Some (s_ "Unhandled control flow eval result (tell Daniel)")   (* eval.rs:39,42 *)
  end.
