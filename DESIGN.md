# Formal model of abl.vpath in Rocq (Coq 8.16.1)

Build: `cd rocq && coq_makefile -f _CoqProject -o Makefile && make -j4`.
Properties in English: `properties.jsonl`. Theorems per property and their status: `MANIFEST.json`.
Wrong programs tried against the theorems: `seeded/LOG.jsonl`.

## Layout

All files are in `rocq/theories/` (logical name `Verif`). There are four kinds:

* **Model** files hold definitions only, each citing the lines of /repo it models.
* **Spec** files hold the small independent vocabulary the theorems are stated in.
* **Facts** files hold lemmas.
* **Props** files hold the theorems listed in `MANIFEST.json`, a concrete case beside each (`..._witness`, or an
  `Example` below it), refutations, and `Print Assumptions`.

| model file | models |
|---|---|
| `Str.v` | Python `str`/`bytes` as `list N` (code points / byte values), the str methods used |
| `Exc.v` | exceptions as values, result type, state-and-exception monad |
| `Utf8.v` | UTF-8 codec, `quote_plus`, `unquote_plus`, `urlencode` |
| `UriParse.v` | uriparse.py 60-157 and 337-375, simpleuri.py |
| `UriFamily.v` | uriparse.py 160-335: the parsers by scheme, `URIParser` |
| `BaseUri.v` | fs.py 183-195 and 235-516: `URI()`, `BaseUri` as far as it needs no connection; localfs.py 31-41 |
| `Mem.v` | memory.py 18-490, 522-629: nodes, lookup, every operation, handles |
| `Lines.v` | memory.py 113-115, 186-192: `readlines`, and `readline` until it returns nothing |
| `MemOps.v` | the operations of the memory backend as data, `reachable` states |
| `Dump.v` | memory.py 493-519: `dump` |
| `Generic.v` | fs.py 198-232, 520-801, 896-1026: the operations implemented once for all backends, over a record of what a backend supplies |
| `UriOps.v` | the URI methods on the memory backend as data (for the callbacks of C54) |
| `Fnmatch.v` | Python's `fnmatch.fnmatch` |
| `Registry.v`, `RegistryConc.v` | fs.py 21-181, by one thread and by several |
| `Cleaner.v` | fs.py 146-175, the cleaner thread and shutting it down, with times |
| `Busy.v` | fs.py 76-159, 219-230, methods of several threads beside the cleaner thread |
| `Version.v` | _version.py, __init__.py 31-32 |
| `Locks.v` | memory.py 257-281, 572-589: locks, by several threads |
| `LockBlock.v` | fs.py 804-812, memory.py 257-281: the with-block of a lock, by one thread |
| `Zip.v` | zip.py |
| `ZipUse.v` | uses of one zip connection between which others change the containing file |
| `Misc.v` | misc.py; memory.py 284-296 |
| `Posix.v` | the operating system below localfs.py (trusted, not code of /repo) |
| `Local.v` | localfs.py |
| `WorkDir.v` | misc.py 40-51 above `Posix.v`: `WorkingDirectory` with links and programs on local files as its body |
| `TempFile.v` | misc.py 12-38 above `Posix.v`: `TempFileHandle` with any program as the body of the with-block |
| `World.v` | two connections at once: `Generic.v` on URIs of which some belong to one backend and some to another |
| `Pieces.v` | fs.py 926-927, 966-967: the same with files copied block by block |
| `Attr.v` | reading and assigning attributes of a URI by name, `__getattr__`, copying by the library |
| `Plugins.v` | registering the entry points when the package is imported |
| `Plug.v` | fs.py 827-1115: classes derived from FileSystem and RevisionedFileSystem with any methods of their own, the URI methods on them |
| `Prune.v` | a loop over a walk that removes names from the list of directories |
| `Net.v` | any number of memory connections at once: registry, `with_connection`, one file system for each connection |
| `NetLock.v` | `lock` and the one table of locks where there are several memory connections |
| `Program.v` | programs of API calls, run on the memory backend and on local files |
| `Prog.v`, `LocProg.v` | programs that choose each call by the answers to those before, on the memory backend with open files, and on local files |
| `LocSteps.v` | localfs.py 52-182 and the methods of `FileSystem` on it once more, system call by system call, with other processes in between, or stopped before one of them |

| spec file | vocabulary |
|---|---|
| `SpecUri.v` | the URI grammar |
| `SpecAttr.v` | the table of the attributes of a URI |
| `SpecParse.v` | complete rules for taking any text apart and for making a URI from it |
| `SpecNames.v` | complete rules for split, directory, last, join, +, path and str of any URI |
| `SpecPosix.v` | path lookup on local trees with links; complete rules for the operations on local files, for every URI |
| `SpecWork.v` | local URIs with relative paths, and the same calls with absolute ones |
| `SpecStay.v` | what removing a local tree may touch; names that a URI does not read as a way out |
| `SpecInto.v` | what copying to a local destination may write; names that stay themselves when they are joined and cut out again |
| `SpecCalls.v` | the calls of a backend each method of a URI makes, with arguments, answers and order |
| `SpecMove.v` | the complete rule for moving a local file or link |
| `SpecLocCopy.v` | the complete rule for copying a local file or link |
| `SpecJoin.v` | the complete rule of urljoin and of tidying up a path |
| `SpecMem.v` | trees as functions from physical paths to entries; path resolution as an inductive relation |
| `SpecFile.v`, `SpecHandle.v` | reading in slices and lines; calls on an open file |
| `SpecExact.v` | complete rules for the operations of a memory file system, for every path |
| `SpecCopy.v` | complete rules for copies and moves of single files, md5, glob and makedirs, for any two URIs |
| `SpecGen.v`, `SpecFn.v` | walks, copies of trees; meaning of shell patterns |
| `SpecPlugins.v` | which entry point serves a scheme |
| `SpecPlug.v` | the methods of a class, which of them each URI method needs, what they keep; the zip backend as a class |
| `SpecPrune.v` | the tree a walk goes through, thinned out |
| `SpecReg.v` | which lookups ask for the same connection, which URIs do |
| `SpecCleaner.v` | runs in which the cleaner thread is never late |
| `SpecBusy.v` | runs of several threads through states with a property; quiet moments |
| `SpecVersion.v` | names in archives, what git says of a checkout, the styles of versions |
| `SpecZip.v` | contents of an archive |
| `SpecZipUse.v` | rules of a zip connection: the file now, the members last seen |
| `SpecLocal.v` | local trees, soundness, the tree a memory file system shares with a local one |
| `SpecLinks.v` | local trees with links: what a path leads to, which directories a walk enters |
| `SpecDump.v` | the records of a dump |
| `SpecNet.v` | which URIs belong to one memory connection; what a call leaves alone; programs woven with the work of others |
| `SpecNetTwo.v` | what a call with URIs of two memory connections leaves alone |
| `SpecWorld.v` | where a copy goes, what has been transferred from one file system to another |

## Modelling conventions

* A Python function becomes a total Gallina function with the same branches. An exception is a value `Raise e`;
  effects that happened before the exception stay in the returned state.
* Node objects of the memory backend live in a heap indexed by allocation number, so object identity (open handles
  that outlive a removed file, `reset()` under an open handle) is represented.
* `time.time()` is read from a clock field of the state that only moves between operations.
* Recursion bounded by the code (the 32-level link limit) is structural recursion on the remaining budget. Recursion
  not bounded by the code (`walk`, `copy`, `makedirs`) takes explicit fuel and raises the distinguished `OutOfFuel`
  (Python: RecursionError); theorems say how much fuel suffices or that none does.
* `os.sep` is `/`, `os.name` is `posix`, Python is CPython 3.12.
* Threads: small-step systems; a step is a stretch of code between two points at which another thread may run.

## How the properties are proved

* **URIs (C01-C16, C60, C72-C74, C83)**: laws over arbitrary strings, from lemmas about split, join, takewhile and a
  grammar of URIs (`SpecUri.v`) whose parsing and printing is determined.
* **Registry (C17-C21)**: a state machine; invariants by induction over histories and over interleavings of any number of
  threads.
* **Memory files (C22-C37, C48-C51, C59, C75-C78)**: an invariant `wf` of the heap (a forest below the root, no duplicate names),
  kept by every operation; an abstraction `view` of the heap to a tree; each operation's effect on `view`. The
  theorems speak of `view` and of the inductive resolution of paths only. C51 is by induction over all programs.
* **Generic operations (C34, C35, C38-C47, C50, C54)**: `Generic.v` at the memory backend, induction over the list of
  visited directories and over heap size (termination).
* **Locks (C52, C53, C84)**: interleavings of any number of threads, an invariant relating owners and the lock table.
* **Zip (C55-C58)**: an archive is the list of its members. C118 and C119 add what others do to the file between two uses.
* **Context managers (C61)**: combinators over an arbitrary body.
* **Local files (C62-C71)**: a simulation between the memory backend and `Local.v` over `Posix.v` transfers the
  results about the memory backend; moves and soundness are proved directly.
* **Local trees with links (C85-C88)**: directly on `Posix.v`; a lookup of a path through a directory continues from what
  the directory resolves to, which gives removal, walks and copies by induction over the depth. Walks end because the
  operating system follows at most 40 links.
* **Twins (C89, C90)**: a relation between two states (memory: a partial bijection of nodes below the root and of open
  files; local: permuted entries) which every operation keeps while giving equal answers; then induction over programs.
* **What can be seen (C151)**: the converse of C89.  A program makes a link to the root under a name that is new, and looks at a place
  through it: that path meets no callback, no repeated name and no leading dot.  Names in directories contain no slash (an
  invariant of the operations), so every place has such a path.
* **What a URI keeps (C152)**: the domains of C11, C14 and C60 made exact.  The proofs of "only if" count characters: a path
  has at least two slashes less than the text it comes from, and no parenthesis of a group survives.
* **Dictionaries in queries, and dirname beyond the top (C153, C154)**: the domain of C03 made exact (quoting a key makes it
  longer, or replaces a blank by a plus sign, so that a set of keys that is the same after quoting has no key that was quoted),
  and what C08 leaves out: dirname() works on the text, so that above a host it cuts the authority off and goes on with what is
  left of the scheme as a relative local path, for ever.
* **Values in queries (C155)**: SpecUnquote.v has the rules for plus signs, percent signs, UTF-8 (what one U+FFFD replaces
  is defined by which bytes begin a character, not by a table of ranges) and quoting, and UnquoteFacts.v shows that the
  functions of Utf8.v are these rules. The complete rules for URIs (C100, C101) now use them, so that no rule of
  SpecParse.v uses a function of the parser; a wrong table of hexadecimal digits went unnoticed before.
* **URIParser completely (C156)**: rules for parse, unparse, scheme_of and info_of with a case for every text and every tuple,
  from the complete rules for taking a URI apart.  C156_back says what unparse makes of the tuples of parse.
* **Parts of one memory file system (C159)**: SpecApart.v says what a part is (the entries below some names at the top), which
  URIs and links belong to it, and what two parties do to one file system. The proof compares every operation on the file
  system with the same operation on one from which the rest is cut away (`pruned`, ApartFacts*.v), builds the URI methods from
  the operations by Pair.v, and gets from one cut-away file system to another by MemTwin.v; the backend
  `shared` lets the other party act between any two operations of a method. Not covered: handles that stay open while the other
  party goes on, and operations of the memory backend that overlap in time.
* **Local files at and below one directory (C160)**: SpecHome.v says which texts are paths at or below a directory, when the links
  there do not lead away, and what it means that two file systems are the same there. HomeFacts1.v shows that looking up such a
  path gives the same in both, HomeFacts2.v the same for the functions of os and shutil, HomeFacts3.v that the URIs the methods
  form stay at and below the directory, HomeFacts4.v puts it together for all calls; PropsHome.v has the theorems.
* **Other processes between the system calls (C161)**: LocSteps.v writes the methods for local files down again, system call by
  system call, with a function before each that says what other processes did to the file system in the meantime.
  C161_same_code shows that without others these are the methods of Local.v and LocProg.v, for all arguments and states.
  One step each: os.path.samefile, shutil.copystat, and copying and removing a whole directory when shutil.move could not rename
  it. Others do not change the clock during a call. SpecSteps.v says what they may do; StepFacts.v and StepFacts2.v use
  HomeFacts and Pair.v; PropsSteps.v has the theorems.
* **Stopping a method (C162)**: in LocSteps.v what happens where a system call is made is a parameter (`step`); `stask_plain`
  (StepFacts2.v) shows that with nothing added these are the methods of LocProg.v. For C162 a number of system calls is made
  and then an exception raised in place of every further one. The steps are those of C161: an interrupted write of one
  block, or the copying of a directory by shutil.move when it could not rename it, happens as a whole or not at all.
  PropsStop.v has the theorems.  PropsRetry.v (C163) has those about remove() and makedirs(), for all URIs and without the
  conditions on links and paths: invariants of the stopped methods, and C147 for the call that returns.
  PropsRetry2.v (C164): makedirs() called again on file systems without links, from C68 for the call that returns.
  PropsRetry3.v (C165): the same for recursive remove().  PropsRetry4.v (C166): the same for copy() of one file, from C67.
* **Undoing a join (C158)**: split() after a join for every query, authority and number of trailing slashes, with the exact condition under which it
  gives the URI back (C06 is false of the code).
* **Two memory connections in one call (C157)**: copy and move in a process with any number of connections (Net.v) do what they
  do on the two file systems alone (World.v), by the pairing of Pair.v; C157_file says exactly what becomes of a file, and of
  the times, which the code sets in the source's file system; copystat, symlink and sync use the first URI's connection only.
* **Complete rules (C91-C99)**: for every operation of the memory file system a rule (a function or an inductive relation on
  trees) that has a case for every path; the rules are shown to be total.  Copies and moves are the rules of their steps in
  order, each on the tree the step before leaves.
* **Complete rules of the parser and of URIs (C100-C104)**: relations saying what the text is put together from, shown equivalent to
  the functions; so each text has exactly one result.  Of Python's int(), the limit of 4300 digits and digits outside ASCII
  are not modelled.
* **Complete rules of local files (C105, C106)**: path lookup as a relation with a case for each step of the kernel, shown
  equal to the lookup function; the operations as relations on the place found, total and with one result and one next
  tree.  Trees are compared by their entries.
* **Threads and the cleaner (C128, C129)**: every access to the registry is a step of its own; invariants over all
  interleavings, with a condition on every state passed.
* **Versions (C130-C136)**: git is an arbitrary function from commands to answers; rules for the version by what git says.
* **Classes of other packages (C137-C144)**: one proof that two classes that do the same, keep an invariant and raise only allowed exceptions in the methods
  needed do so in every URI method (`PlugFacts.v`); its three special cases are C138, C139 and C141.
* **URIs with another authority (C114)**: one proof that an operation run on rewritten URIs over a backend that takes rewritten URIs
  gives the rewritten answer (`Alike.v`), for every method at once.
* **Two connections (C79-C82)**: one proof about copies and moves from an abstract source to an abstract destination,
  used for every pair of backends.

A property that is false of the code as stated in English has status `partial`: the theorem on the domain where it
holds is named `_partial`, a `_refuted` theorem shows the failure (for all states where possible, otherwise on a
concrete state by computation), and the note in `MANIFEST.json` says what is false.

## Trusted base

* The kernel of Coq 8.16.1 (including its `vm_compute` machine, used for concrete cases).
* Axioms: none. `Print Assumptions` stands below each theorem in the Props files and prints
  `Closed under the global context` for every one of them. (`vcheck` also lists the axioms of
  `Coq.ssr.ssrunder`, which are part of a loaded library file; no theorem depends on them.)
* That the model files say what the Python code does; they were written by reading it, since it cannot be run here.
* That `Str.v`, `Utf8.v`, `Fnmatch.v`, `Posix.v`, the `BytesIO` part of `Mem.v` and the `zipfile` part of `Zip.v` say what
  Python's library and Linux do.

### Not modelled

* `uriparse._test`; of `_version.py` the table HANDLERS and what is printed; of `__init__.py` all but `__version__`. Outside `Plugins.v` the three built-in schemes are taken as registered (C124).
* `BaseUri.__repr__` (it is `__str__`).
* The win32 branches, Python 2.
* localfs.py 153 `lock` (`abl.util.LockFile` is not in /repo); localfs.py 184 `dump` (does nothing).
* `hashlib` and `mimetypes` are parameters of the theorems about `md5` and `dump`.

### Simplifications

* `int()` of a port takes any number of digits (Python 3.12 refuses more than 4300 with the ValueError of other bad ports).
* Attributes of URIs starting with two underscores are read, not assigned; those of Python 3.12 are taken (C120).
* Keyword extras of URIs and connections are texts.
* A callback of the memory backend does nothing or raises; it does not use the file system.
* Locks: the other operations of the memory backend are atomic steps; so is the creation of a lock in the defaultdict.
* `World.v`: two connections that do not touch each other; a copied file is read and written in one piece. `Pieces.v` has the
  blocks; C150 says that this makes no difference.
* `Mem.v` and what is built on it: one memory connection, that of the URI the method is called on. C110 says for which
  URIs this is what the code does, `Net.v` has the code that looks for the connection.
* `Net.v`: only the scheme `memory` is registered; one thread; between two connections a file is copied in one piece;
  where the code calls a method of its own connection with a URI of another one, see the comment at `current`.
* `Plug.v`: one connection; the class leaves `copy`, `makedirs`, `move`, `walk` and `glob` as they are; `__exit__` of its files swallows no exception.
* `Cleaner.v`: the operations of the registry are not interrupted (in `Busy.v` they are, without delays); the clock does not go back.
* Zip: see the head of `Zip.v`; in particular the container is changed by one connection only, except in
  `ZipUse.v`, where others change it between two uses (not within a with-block).
* `TempFile.v`: the handle holds the content from when it was opened (no writing meanwhile); decoding and line ends are a function of the whole content.
* `Misc.v`: the file system below `WorkingDirectory` has no links and permissions; `WorkDir.v` has links. The working directory
  is a path: renaming it does not take the process along.
* `Posix.v`: one file system, all permissions, no hard links; adding and removing entries leaves the modification
  time of the directory; the text of a link that ends in `/` is looked up like any other when a file is opened to
  write; when `shutil.move` of a directory falls back to copying, only clean absolute paths without links on the way
  are modelled, the others raise `OutOfFuel`, which no theorem about success can meet.

## Disagreements between the code and what a user expects

Every one is a `_refuted` theorem. The most notable:

* `copy()` of a file onto itself, also through a link or with another spelling, empties it; `move()` onto itself deletes
  it (C40, C44, C67, C71). A link copied onto itself is removed, a link copied or moved onto its file replaces it (C87).
* Relative links change their target when copied: `../g` becomes `/g`, since `URI("../g")` takes `..` as a host (C87).
* A local directory with a `?` in the name of a file cannot be removed recursively (C85).
* `remove(recursive=True)` of a local directory deletes files outside it when it holds a file named `..\aaa\f`, `..?x=y`
  or `..#`: these names, joined to the URI, lead out of the directory (C146).
* `copy(recursive=True)` to a local directory overwrites files outside of it when a member of the archive is named
  `/a/../../f` ("zip slip"), a memory directory is named `..`, or a local directory is named ` ..` with a blank (C148).
* A recursive copy into the source does not end (C43).
* The cleaner thread can close a connection a method has just started to use (C129).
* Opening for appending on an empty file starts at position 1, so a NUL byte appears (C28).
* `lock()` empties the file before it tries the lock (C53); locks do not survive a new connection, and `cleanup`
  removes the file of the next holder (C52).
* `exists()`, `isfile()`, `isdir()` raise AttributeError below a file (C24), `islink()` loses track of links whose name
  occurs earlier in the path (C23).
* Query strings end up in names (C14, C72), keys of queries are not quoted (C03), equality ignores part of a URI (C13).
* Credentials given as keywords are lost by copies and derived URIs (C09, C73).
* `URIParser.unparse` never gives back what `parse` has parsed, and mailto URIs cannot be parsed (C83).
* `urljoin` raises for every relative reference (C15).
* Two threads asking for one connection may get two, or one that is closed (C21).
* Zip: a fresh connection cannot answer `exists()` (C55), members without a leading slash are invisible (C57),
  two writers lose data (C56).
* Copies between memory file systems of two users change the times in the source's file system; links copied to another backend are
  made in the source's file system and may destroy files there (C79).
* `remove()` of `memory:///a?x=/b` removes `/b` and leaves `/a` (C159, C34).
* Handles on one memory file share a position, closed handles work, read-only ones write (C76).
* `dump()` moves positions and shows files from them on (C78).
* Names starting with a dot cannot be joined to the root (C05, C46, C47, C58, C60).
* `last()` is empty after a trailing slash for some operations, so that copies make entries with an empty name (C39, C59).
* A memory file system that was not used for half an hour is dropped with all its files (C112).
* `makedirs()` does not work in a memory file system with a user (C114).
* `internal_copy` of a backend is not used for a destination that is a new URI object (C142); `switch` of a RevisionedUri raises TypeError (C143).
* With `clean_interval` 0, `shutdown()` never returns (C117).
* A zip connection that has opened an archive tests and lists the members it saw then, though others have replaced or removed
  the file; opening a member puts this right (C119).
* Attributes assigned to a URI do not show in its text and in comparisons, but the connection is looked for with them: after
  `u.hostname = "other"` two equal URIs use different connections (C121).
* `copy.copy`, `copy.deepcopy` and unpickling of any URI end in a RecursionError, since `__getattr__` asks an object without
  `parse_result` for it (C122).
* A plugin that can be loaded but has no `uri` or no `scheme` makes the import of the package fail, also for the plugins after it
  (C123).
* All memory file systems share one table of locks, by path: while a file is locked in one of them, nobody can lock the file of that
  path in another one, and the attempt empties it (C126).
* Without git, the tree unpacked from abl.vpath-1.0 has version -1.0 (C136); a branch name that is not UTF-8 makes the import of the package
  fail (C134).
* URIs cannot be put into sets or used as keys of dictionaries: they have `__eq__` and no `__hash__`, so `__hash__` is None (C120).
