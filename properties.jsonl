{"id": "C01", "title": "urisplit inverts uriunsplit", "statement": "For every five components that respect the delimiters of the URI grammar, urisplit(uriunsplit(components)) returns exactly those components, except that for schemes other than http/https a fragment is returned as part of the path ('#' is an ordinary file-name character there).", "quantifier": "all schemes, authorities, paths, queries and fragments (unbounded Unicode strings)", "why_tests_cant": "the component strings are unbounded; tests sample a handful of URIs", "anchors": ["abl/vpath/base/uriparse.py:urisplit", "abl/vpath/base/uriparse.py:uriunsplit"]}
{"id": "C02", "title": "split_authority inverts join_authority", "statement": "For every user, password, host and port free of the delimiters, split_authority(join_authority((user,password,host,port))) returns the same tuple, with absent parts returned as None.", "quantifier": "all user/password/host/port strings, each present or absent", "why_tests_cant": "unbounded strings and 16 presence combinations", "anchors": ["abl/vpath/base/uriparse.py:split_authority", "abl/vpath/base/uriparse.py:join_authority"]}
{"id": "C03", "title": "Query strings round-trip", "statement": "For every dictionary with plain keys and arbitrary Unicode text values, parse_query_string(urlencode(d)) == d.", "quantifier": "all finite dictionaries, values over all Unicode scalar values", "why_tests_cant": "unbounded dictionaries and percent-encodings of every code point", "anchors": ["abl/vpath/base/simpleuri.py:parse_query_string", "abl/vpath/base/simpleuri.py:uri_from_parts"]}
{"id": "C04", "title": "str() of a URI parses back to an equal URI", "statement": "For every non-http URI made of a scheme, optional user/password/host/port or ((connector)), an ordinary absolute path and a plain query, URI(str(u)) == u.", "quantifier": "all URIs of that grammar", "why_tests_cant": "unbounded strings in every component", "anchors": ["abl/vpath/base/simpleuri.py:UriParse.__str__", "abl/vpath/base/simpleuri.py:UriParse.__init__", "abl/vpath/base/fs.py:BaseUri.__init__"]}
{"id": "C05", "title": "Joining appends exactly one path component", "statement": "For every base URI and every ordinary name, the path of base / name is the base path without trailing slashes, then '/', then the name; scheme, host, port, in-URI credentials, connector and query are those of the base.", "quantifier": "all base URIs of the URI grammar, all ordinary names", "why_tests_cant": "names and base paths are unbounded", "anchors": ["abl/vpath/base/fs.py:BaseUri.join", "abl/vpath/base/fs.py:BaseUri.__truediv__", "abl/vpath/base/simpleuri.py:UriParse.as_list", "abl/vpath/base/simpleuri.py:uri_from_parts"]}
{"id": "C06", "title": "split() undoes join", "statement": "For every URI u without trailing slash (or the root) and every ordinary name n, (u / n).split() is (u, n); dirname() and basename() are its two parts and last() is n.", "quantifier": "all URIs of the grammar, all ordinary names", "why_tests_cant": "unbounded paths", "anchors": ["abl/vpath/base/fs.py:BaseUri.split", "abl/vpath/base/fs.py:BaseUri.directory", "abl/vpath/base/fs.py:BaseUri.basename", "abl/vpath/base/fs.py:BaseUri.last", "abl/vpath/base/fs.py:BaseUri.join"]}
{"id": "C07", "title": "Joining is associative and ignores the base's trailing slashes", "statement": "u / a / b, u.join(a, b) and u / (a + '/' + b) are equal URIs for all ordinary names a, b, and (u + trailing slashes) / a equals u / a.", "quantifier": "all URIs of the grammar, all ordinary names", "why_tests_cant": "unbounded paths and names", "anchors": ["abl/vpath/base/fs.py:BaseUri.join", "abl/vpath/base/fs.py:BaseUri.__eq__"]}
{"id": "C08", "title": "dirname climbs to the root and stops there", "statement": "For a path of k components, dirname(level) drops exactly the last min(level,k) components; from the root on it stays at the root, for every level.", "quantifier": "all component lists, all levels", "why_tests_cant": "unbounded depth and level", "anchors": ["abl/vpath/base/fs.py:BaseUri.directory", "abl/vpath/base/fs.py:BaseUri.split"]}
{"id": "C09", "title": "Derived URIs address the same backend", "statement": "For every URI u, joining a name or taking the directory part yields a URI that is served by the same backend connection (same scheme, host, port, user, password, connector and extras).", "quantifier": "all URIs, with credentials in the URI, in the query or as keyword arguments", "why_tests_cant": "every combination of credential source and unbounded strings; the failing combination is not covered by the tests", "anchors": ["abl/vpath/base/fs.py:BaseUri._key", "abl/vpath/base/fs.py:BaseUri._extras", "abl/vpath/base/fs.py:BaseUri.join", "abl/vpath/base/fs.py:BaseUri.split", "abl/vpath/base/fs.py:BaseUri.__init__"]}
{"id": "C10", "title": "A plain path and its file:// form are the same URI", "statement": "For every path string that does not start with file://, URI(p) and URI('file://' + p) are the same URI.", "quantifier": "all path strings", "why_tests_cant": "unbounded strings", "anchors": ["abl/vpath/base/fs.py:BaseUri.__init__", "abl/vpath/base/fs.py:URI"]}
{"id": "C11", "title": "A URI made from a POSIX path keeps that path", "statement": "For every POSIX path string p free of URI metacharacters, URI(p).path denotes the same file as p: absolute paths stay as given and relative paths stay relative to the working directory.", "quantifier": "all path strings, absolute and relative, including those beginning with dots", "why_tests_cant": "unbounded strings; the dot cases are not covered by tests", "anchors": ["abl/vpath/base/fs.py:BaseUri.__init__", "abl/vpath/base/fs.py:BaseUri.path", "abl/vpath/base/uriparse.py:urisplit"]}
{"id": "C12", "title": "Windows paths round-trip through the internal form", "statement": "For every drive-absolute Windows path X:\\a\\b..., URI(p, sep='\\\\').path is p again while the internal form is /X/a/b....", "quantifier": "all drive letters and component lists", "why_tests_cant": "unbounded paths", "anchors": ["abl/vpath/base/fs.py:normalize_uri", "abl/vpath/base/fs.py:denormalize_path", "abl/vpath/base/localfs.py:LocalFileSystemUri.path"]}
{"id": "C13", "title": "URI equality is an equivalence that identifies the addressed resource", "statement": "== on URIs is reflexive, symmetric and transitive, != is its negation, equal URIs have the same scheme, path and query, and equal URIs address the same resource.", "quantifier": "all triples of URIs", "why_tests_cant": "relation over unbounded strings", "anchors": ["abl/vpath/base/fs.py:BaseUri.__eq__", "abl/vpath/base/fs.py:BaseUri.__ne__", "abl/vpath/base/simpleuri.py:UriParse.__eq__"]}
{"id": "C14", "title": "Adding a suffix extends the path", "statement": "For every URI u and every ordinary suffix s, (u + s).path == u.path + s and everything else is unchanged.", "quantifier": "all URIs, with and without query; all ordinary suffixes", "why_tests_cant": "unbounded strings; the query case is not covered by tests", "anchors": ["abl/vpath/base/fs.py:BaseUri.__add__"]}
{"id": "C15", "title": "urljoin resolves references as RFC 3986 requires", "statement": "For every base URI and every reference, urljoin(base, reference) is the resolved absolute URI.", "quantifier": "all base URIs and references", "why_tests_cant": "unbounded strings; the module's own self test is not part of the test suite", "anchors": ["abl/vpath/base/uriparse.py:urljoin", "abl/vpath/base/uriparse.py:urisplit"]}
{"id": "C16", "title": "is_absolute and unipath agree with the path", "statement": "For every URI, unipath begins with '/' or '.', and is_absolute holds exactly when the path property begins with '/'.", "quantifier": "all URIs", "why_tests_cant": "unbounded strings", "anchors": ["abl/vpath/base/fs.py:BaseUri.is_absolute", "abl/vpath/base/fs.py:BaseUri.unipath", "abl/vpath/base/fs.py:BaseUri.path"]}
{"id": "C17", "title": "One connection per backend key", "statement": "In every history of registrations, lookups and clean-ups run by one thread, two lookups with equal keys and no intervening clean-up of that key return the same connection object, and lookups with different keys return different objects.", "quantifier": "all histories and all keys", "why_tests_cant": "unbounded histories", "anchors": ["abl/vpath/base/fs.py:ConnectionRegistry.get_connection", "abl/vpath/base/fs.py:ConnectionRegistry.create"]}
{"id": "C18", "title": "Clean-up closes exactly the stale connections", "statement": "A clean-up at time t closes and forgets exactly the open connections unused for more than the timeout (all of them when forced), each once, keeps all others, and an exception from one close() does not spare the others.", "quantifier": "all registry states, times, timeouts and sets of failing connections", "why_tests_cant": "unbounded numbers of connections and failure patterns", "anchors": ["abl/vpath/base/fs.py:ConnectionRegistry.cleanup"]}
{"id": "C19", "title": "A connection is closed at most once and never handed out after that", "statement": "In every single-threaded history a connection object is closed at most once and no lookup returns a closed connection.", "quantifier": "all histories", "why_tests_cant": "unbounded histories", "anchors": ["abl/vpath/base/fs.py:ConnectionRegistry.cleanup", "abl/vpath/base/fs.py:ConnectionRegistry.get_connection"]}
{"id": "C20", "title": "Unknown schemes are rejected without side effects", "statement": "A lookup for a scheme with no registered backend raises NoSchemeError and changes nothing; a lookup for a registered scheme never raises it.", "quantifier": "all registry states and schemes", "why_tests_cant": "all histories", "anchors": ["abl/vpath/base/fs.py:ConnectionRegistry.get_connection", "abl/vpath/base/fs.py:ConnectionRegistry.register"]}
{"id": "C21", "title": "Concurrent lookups of one key agree", "statement": "Whatever the interleaving of threads looking up the same key, all of them obtain the same connection and none fails.", "quantifier": "all schedules of any number of threads, with and without the cleaner thread", "why_tests_cant": "schedules cannot be enumerated by unit tests", "anchors": ["abl/vpath/base/fs.py:ConnectionRegistry.get_connection", "abl/vpath/base/fs.py:ConnectionRegistry.create", "abl/vpath/base/fs.py:ConnectionRegistry.cleanup"]}
{"id": "C22", "title": "The memory tree is well-formed in every reachable state", "statement": "After every sequence of operations the root exists and is a directory, each directory lists each name once, listings are sorted, and no operation ever meets a dangling or shared node.", "quantifier": "all operation sequences", "why_tests_cant": "unbounded histories", "anchors": ["abl/vpath/base/memory.py:MemoryFileSystem", "abl/vpath/base/memory.py:MemoryDir"]}
{"id": "C23", "title": "exists, isfile, isdir and islink classify consistently", "statement": "In every reachable state and for every path whose parent is a directory, exists() is true exactly when exactly one of isfile() and isdir() is true; islink() is independent of what the link points to; dangling and cyclic links do not exist.", "quantifier": "all reachable states and paths", "why_tests_cant": "all trees and link graphs", "anchors": ["abl/vpath/base/memory.py:MemoryFileSystem.exists", "abl/vpath/base/memory.py:MemoryFileSystem.isfile", "abl/vpath/base/memory.py:MemoryFileSystem.isdir", "abl/vpath/base/memory.py:MemoryFileSystem.islink"]}
{"id": "C24", "title": "Existence tests never raise", "statement": "exists(), isfile(), isdir() and islink() return a boolean for every path in every reachable state.", "quantifier": "all reachable states and paths, including paths below files and below dead links", "why_tests_cant": "all trees; the failing shapes are not covered by tests", "anchors": ["abl/vpath/base/memory.py:MemoryFileSystem._get_node_prev", "abl/vpath/base/memory.py:MemoryFileSystem._child", "abl/vpath/base/memory.py:MemoryFileSystem.exists"]}
{"id": "C25", "title": "Reading returns the bytes last written", "statement": "After opening a path for writing and writing any sequence of byte strings, opening it for reading and reading returns their concatenation, whatever the previous content.", "quantifier": "all reachable states, paths and write sequences", "why_tests_cant": "unbounded data and states", "anchors": ["abl/vpath/base/memory.py:MemoryFileSystem.open", "abl/vpath/base/memory.py:MemoryFile", "abl/vpath/base/memory.py:MemoryFileProxy"]}
{"id": "C26", "title": "Writing one file changes nothing else", "statement": "Opening a path for writing and writing to it leaves kind, content, mode and mtime of every other file, directory and link unchanged.", "quantifier": "all reachable states, all paths", "why_tests_cant": "every other path in every tree", "anchors": ["abl/vpath/base/memory.py:MemoryFileSystem._open_for_write", "abl/vpath/base/memory.py:MemoryFile.write"]}
{"id": "C27", "title": "Reading is free of side effects on content", "statement": "Opening for reading and reading by any sequence of sizes returns consecutive slices whose concatenation is a prefix of the content (the whole content at EOF) and changes no content, mode or mtime.", "quantifier": "all states, files and read-size sequences", "why_tests_cant": "unbounded sequences of reads", "anchors": ["abl/vpath/base/memory.py:MemoryFile.read", "abl/vpath/base/memory.py:MemoryFileSystem._open_for_read"]}
{"id": "C28", "title": "Appending keeps the old content", "statement": "Opening an existing file for appending and writing d leaves old content followed by d.", "quantifier": "all files and data, including empty files", "why_tests_cant": "unbounded data; the empty-file case is not covered by tests", "anchors": ["abl/vpath/base/memory.py:MemoryFileSystem._open_for_append", "abl/vpath/base/memory.py:MemoryFile.__len__"]}
{"id": "C29", "title": "Write handles cannot be read", "statement": "A handle from open('w') or open('a') raises EBADF on read() in every state, and leaves the file unchanged.", "quantifier": "all states, handles and read sizes", "why_tests_cant": "all states", "anchors": ["abl/vpath/base/memory.py:MemoryFileProxy.read"]}
{"id": "C30", "title": "Text and binary views of a file agree", "statement": "For every Unicode text, writing it in text mode and reading it in binary mode gives its UTF-8 bytes, and reading it in text mode gives the same text back.", "quantifier": "all texts over Unicode scalar values", "why_tests_cant": "all code points and lengths", "anchors": ["abl/vpath/base/memory.py:MemoryFileProxy.encode", "abl/vpath/base/memory.py:MemoryFileProxy.decode"]}
{"id": "C31", "title": "Line iteration partitions the content", "statement": "Iterating a file (or readline/readlines) yields lines whose concatenation is the rest of the content; each but possibly the last ends with its only newline, and none is empty.", "quantifier": "all contents and start positions", "why_tests_cant": "unbounded content", "anchors": ["abl/vpath/base/memory.py:MemoryFile.readline", "abl/vpath/base/memory.py:MemoryFile.__next__", "abl/vpath/base/memory.py:MemoryFile.readlines"]}
{"id": "C32", "title": "mkdir adds exactly one empty directory", "statement": "mkdir on a missing name under an existing directory succeeds and adds exactly one empty directory; on an existing name it raises EEXIST and changes nothing; under a missing parent it raises ENOENT and changes nothing.", "quantifier": "all reachable states and paths", "why_tests_cant": "every other path in every tree", "anchors": ["abl/vpath/base/memory.py:MemoryFileSystem.mkdir"]}
{"id": "C33", "title": "listdir lists exactly the entries", "statement": "listdir(d) is strictly sorted and contains name n exactly when d/n is a file, directory or link.", "quantifier": "all reachable states, all directories, all names", "why_tests_cant": "all trees", "anchors": ["abl/vpath/base/memory.py:MemoryFileSystem.listdir", "abl/vpath/base/memory.py:MemoryDir.keys"]}
{"id": "C34", "title": "remove deletes exactly the named entry", "statement": "remove() of a file, an empty directory or a link deletes that entry and nothing else (a link's target is untouched); of a missing path it raises FileDoesNotExistError, of a non-empty directory ENOTEMPTY, both without any change.", "quantifier": "all reachable states and paths", "why_tests_cant": "every other path in every tree", "anchors": ["abl/vpath/base/fs.py:BaseUri.remove", "abl/vpath/base/memory.py:MemoryFileSystem.removefile", "abl/vpath/base/memory.py:MemoryFileSystem.removedir"]}
{"id": "C35", "title": "Recursive remove deletes the subtree and nothing else", "statement": "remove(recursive=True) on a directory terminates, deletes the directory and everything below it, and leaves everything outside untouched, even when links inside point outside or back up.", "quantifier": "all trees of any depth and any link graph with ordinary names", "why_tests_cant": "unbounded trees", "anchors": ["abl/vpath/base/fs.py:remove_dir_recursively", "abl/vpath/base/fs.py:BaseUri.remove", "abl/vpath/base/fs.py:FileSystem.walk"]}
{"id": "C36", "title": "Links are transparent and readlink returns what was linked", "statement": "After target.symlink(link) on a free name, islink(link) holds, readlink(link) == target, and looking the link up gives what looking the target up gives.", "quantifier": "all reachable states, targets and link paths", "why_tests_cant": "all link graphs", "anchors": ["abl/vpath/base/memory.py:MemoryFileSystem.symlink", "abl/vpath/base/memory.py:MemoryFileSystem.readlink", "abl/vpath/base/memory.py:MemoryFileSystem._child"]}
{"id": "C37", "title": "Link loops are detected", "statement": "Lookup terminates for every link graph; on a cycle exists/isfile/isdir return False and open/listdir/info raise ELOOP; chains of up to 32 links resolve and longer ones raise ELOOP.", "quantifier": "all link graphs and chain lengths", "why_tests_cant": "unbounded chains and cycles", "anchors": ["abl/vpath/base/memory.py:MemoryFileSystem._child", "abl/vpath/base/memory.py:MemoryFileSystem._get_node_prev"]}
{"id": "C38", "title": "makedirs creates all missing ancestors", "statement": "After makedirs(p) every ancestor of p and p itself is a directory, nothing that existed has changed, and a second makedirs(p) changes nothing.", "quantifier": "all reachable states and paths of any depth", "why_tests_cant": "unbounded depth", "anchors": ["abl/vpath/base/fs.py:FileSystem.makedirs"]}
{"id": "C39", "title": "Copying a file copies content and attributes", "statement": "copy of a file to a new or existing file (or into a directory) leaves the destination with the source's bytes, mode and mtime, and changes nothing else.", "quantifier": "all file sizes relative to the 8192-byte block, all destinations", "why_tests_cant": "all sizes and states", "anchors": ["abl/vpath/base/fs.py:FileSystem.copy", "abl/vpath/base/memory.py:MemoryFileSystem.copystat"]}
{"id": "C40", "title": "Copying never destroys its source", "statement": "copy(source, dest) never changes the source, for every dest, including dest naming the source itself.", "quantifier": "all states, sources and destinations", "why_tests_cant": "the aliasing destination is not covered by tests", "anchors": ["abl/vpath/base/fs.py:FileSystem.copy", "abl/vpath/base/memory.py:MemoryFileSystem._open_for_write"]}
{"id": "C41", "title": "Recursive copy reproduces the tree", "statement": "Recursive copy of a directory to a missing destination reproduces exactly the files (content, mode, mtime), directories and, with followlinks=False, links of the source tree there, and changes nothing outside.", "quantifier": "all source trees with ordinary names, disjoint destinations", "why_tests_cant": "unbounded trees", "anchors": ["abl/vpath/base/fs.py:FileSystem.copy", "abl/vpath/base/fs.py:FileSystem.walk", "abl/vpath/base/fs.py:FileSystem._copy_link"]}
{"id": "C42", "title": "Recursive copy works from every directory", "statement": "Recursive copy reproduces the tree whatever directory is its source, including the root and directories addressed with a trailing slash or with blanks in names.", "quantifier": "all source directories and names", "why_tests_cant": "shapes not covered by tests", "anchors": ["abl/vpath/base/fs.py:FileSystem.copy"]}
{"id": "C43", "title": "Recursive copy terminates", "statement": "Recursive copy terminates for every source and destination, including a destination below the source.", "quantifier": "all source/destination pairs", "why_tests_cant": "non-termination cannot be observed by a test", "anchors": ["abl/vpath/base/fs.py:FileSystem.copy", "abl/vpath/base/fs.py:FileSystem.walk"]}
{"id": "C44", "title": "move transfers the file", "statement": "After move(source, dest) of a file, dest has the content, mode and mtime of the source, source is gone, and nothing else changed.", "quantifier": "all states and paths", "why_tests_cant": "all states", "anchors": ["abl/vpath/base/fs.py:FileSystem.move"]}
{"id": "C45", "title": "A failing move keeps the source", "statement": "If move raises because the copy failed at any point, the source still exists unchanged.", "quantifier": "all states, destinations and failure points", "why_tests_cant": "failure points in every state", "anchors": ["abl/vpath/base/fs.py:FileSystem.move", "abl/vpath/base/fs.py:FileSystem.copy"]}
{"id": "C46", "title": "walk visits every directory exactly once, parents first or last", "statement": "Top-down walk without following links yields each real directory below the start exactly once, a parent before its children, with its sorted subdirectory and file names; bottom-up yields the same triples with children before parents.", "quantifier": "all trees of any depth", "why_tests_cant": "unbounded trees", "anchors": ["abl/vpath/base/fs.py:FileSystem.walk"]}
{"id": "C47", "title": "glob returns the matching children", "statement": "glob(pattern) returns, in sorted order, the URIs of exactly those entries whose name matches the pattern.", "quantifier": "all directories and patterns", "why_tests_cant": "all patterns and names", "anchors": ["abl/vpath/base/fs.py:FileSystem.glob"]}
{"id": "C48", "title": "Execute permission bits", "statement": "set_exec(m) followed by isexec(k) tells whether m and k share a bit, and set_exec changes no mode bit outside the three execute bits.", "quantifier": "all modes and masks", "why_tests_cant": "all bit patterns", "anchors": ["abl/vpath/base/memory.py:MemoryFileSystem.set_exec", "abl/vpath/base/memory.py:MemoryFileSystem.isexec", "abl/vpath/base/localfs.py:LocalFileSystem.set_exec"]}
{"id": "C49", "title": "info reads back what was set", "statement": "info(set_info) then info() returns the given mode and mtime and the true size; with followlinks=False only the link's own attributes change, with followlinks=True only the target's.", "quantifier": "all states, paths, modes and times", "why_tests_cant": "all states", "anchors": ["abl/vpath/base/memory.py:MemoryFileSystem.info", "abl/vpath/base/memory.py:MemoryFileSystem.copystat"]}
{"id": "C50", "title": "md5 hashes the whole content", "statement": "md5() is the MD5 digest of the file's exact content, for every content length relative to the 4096-byte block.", "quantifier": "all contents", "why_tests_cant": "all lengths", "anchors": ["abl/vpath/base/fs.py:BaseUri.md5"]}
{"id": "C51", "title": "Failed operations change nothing", "statement": "Every memory operation (mkdir, open, listdir, info, symlink, readlink, remove of one entry) that raises leaves the tree exactly as it was.", "quantifier": "all reachable states, all paths", "why_tests_cant": "every failing state", "anchors": ["abl/vpath/base/memory.py:MemoryFileSystem"]}
{"id": "C52", "title": "Locks exclude each other", "statement": "Under every interleaving of threads using lock() on one file, at most one is inside the with-block; with fail_on_lock the loser gets LockFileObtainException.", "quantifier": "all schedules, any number of threads, other operations interleaved", "why_tests_cant": "schedules cannot be enumerated", "anchors": ["abl/vpath/base/memory.py:MemoryLock", "abl/vpath/base/memory.py:MemoryFile.FILE_LOCKS"]}
{"id": "C53", "title": "A refused lock leaves the file alone", "statement": "lock(fail_on_lock=True) that raises because the file is locked does not change the file.", "quantifier": "all states", "why_tests_cant": "not covered by tests", "anchors": ["abl/vpath/base/memory.py:MemoryLock.__enter__"]}
{"id": "C54", "title": "The pre-operation callback runs before any effect", "statement": "If a callback registered for a path raises, every URI operation on that path raises that exception and changes nothing; callbacks of other paths are not run.", "quantifier": "all states, paths, operations and callbacks", "why_tests_cant": "all operations and states", "anchors": ["abl/vpath/base/memory.py:MemoryFileSystem.pre_call_hook", "abl/vpath/base/fs.py:with_connection", "abl/vpath/base/memory.py:MemoryFileSystem._manipulate"]}
{"id": "C55", "title": "Zip listing, existence and kind tests agree", "statement": "For every archive whose member names are absolute, listdir(d) is strictly sorted and contains n exactly when d/n exists; exists is isdir or isfile; isfile(p) iff p is a member, isdir(p) iff some member lies below p.", "quantifier": "all archives and paths", "why_tests_cant": "unbounded archives", "anchors": ["abl/vpath/base/zip.py:content_item", "abl/vpath/base/zip.py:compare_path_strings", "abl/vpath/base/zip.py:compare_parts", "abl/vpath/base/zip.py:ZipFileSystem.listdir", "abl/vpath/base/zip.py:ZipFileSystem._ispart"]}
{"id": "C56", "title": "Zip members written are read back", "statement": "After writing a member, reading it returns the bytes written, every other member is unchanged, and a missing zip file is created with that one member.", "quantifier": "all archives, member paths and data; all sequences of completed writes", "why_tests_cant": "unbounded sequences", "anchors": ["abl/vpath/base/zip.py:WriteStatement", "abl/vpath/base/zip.py:ZipFileSystem.open", "abl/vpath/base/zip.py:ZipFileSystem.open_zip"]}
{"id": "C57", "title": "Zip archives with conventional member names can be browsed", "statement": "The listing of an archive whose members are stored without leading slash shows its top-level entries.", "quantifier": "all archives", "why_tests_cant": "shape not covered by tests", "anchors": ["abl/vpath/base/zip.py:content_item", "abl/vpath/base/zip.py:ZipFileSystem._ispart"]}
{"id": "C58", "title": "walk of a zip archive visits every member once", "statement": "Walking an archive with absolute member names that is a proper tree yields every member exactly once, under its directory.", "quantifier": "all archives that are proper trees", "why_tests_cant": "unbounded archives", "anchors": ["abl/vpath/base/fs.py:FileSystem.walk", "abl/vpath/base/zip.py:ZipFileSystem.listdir"]}
{"id": "C59", "title": "Trailing slashes do not matter", "statement": "p and p + '/' address the same directory for every operation of the memory backend.", "quantifier": "all reachable states and paths", "why_tests_cant": "not covered by tests", "anchors": ["abl/vpath/base/memory.py:MemoryFileSystem.exists", "abl/vpath/base/memory.py:MemoryFileSystem.mkdir", "abl/vpath/base/memory.py:MemoryFileSystem.listdir"]}
{"id": "C60", "title": "Every file name can be used", "statement": "For every name n allowed in a file system (non-empty, without '/' and NUL), root / n addresses an entry whose name is n, and different names address different entries.", "quantifier": "all names", "why_tests_cant": "the failing names are not covered by tests", "anchors": ["abl/vpath/base/fs.py:BaseUri.join", "abl/vpath/base/uriparse.py:urisplit", "abl/vpath/base/memory.py:MemoryFileSystem._path"]}
{"id": "C61", "title": "Context managers restore the previous state", "statement": "WorkingDirectory restores the working directory and LookupExceptionClass the exception class on every exit, normal or exceptional, for every nesting; TempFileHandle deletes its file on every exit.", "quantifier": "all bodies, nestings and exceptions", "why_tests_cant": "all exit paths", "anchors": ["abl/vpath/base/misc.py:WorkingDirectory", "abl/vpath/base/misc.py:TempFileHandle", "abl/vpath/base/memory.py:LookupExceptionClass"]}
{"id": "C62", "title": "The memory file system behaves like the local one", "statement": "A memory file system and a local directory tree that hold the same files answer every sequence of exists, isfile, isdir, islink, listdir, mkdir, makedirs, remove, walk, glob, open-and-read, open-and-write, open-and-append and copy calls with the same values and the same exceptions, and hold the same files afterwards.", "quantifier": "all sequences of calls, all file systems without links", "why_tests_cant": "the tests run the same few scenarios on both backends; the property is about every interleaving of calls in every state", "anchors": ["abl/vpath/base/memory.py:MemoryFileSystem", "abl/vpath/base/localfs.py:LocalFileSystem", "abl/vpath/base/fs.py:FileSystem"]}
{"id": "C63", "title": "Moving local files is like mv", "statement": "u.move(v) on local files puts the file or directory, with everything below it, at v, or under its own name into v when v is a directory; nothing else changes. A move that raises changes nothing.", "quantifier": "all local trees, all pairs of paths", "why_tests_cant": "the outcome depends on what is at the destination, below it and in its parents; shutil.move has many branches", "anchors": ["abl/vpath/base/localfs.py:LocalFileSystem.move"]}
{"id": "C64", "title": "Local files give back what was written", "statement": "After writing (or appending) any pieces to a local file through open(), reading it gives the pieces in order (after the old content when appending); permissions stay, new files get those of the umask, no other entry changes; opening that is refused changes nothing.", "quantifier": "all local trees, paths and lists of pieces", "why_tests_cant": "all contents and all states", "anchors": ["abl/vpath/base/localfs.py:LocalFileSystem.open"]}
{"id": "C65", "title": "Links between local files", "statement": "u.symlink(v) makes v a link whose readlink() is the URI made from the path of u (u itself for an ordinary absolute path) and changes nothing else; exists, isfile, isdir, listdir, reading, writing, appending, info, mtime, isexec and set_exec through the link, and through any chain of links, behave as at its end; remove() of a link removes only the link; loops and missing targets do not exist but are links.", "quantifier": "all local trees, chains of any length, paths below links", "why_tests_cant": "unboundedly many chains and trees", "anchors": ["abl/vpath/base/localfs.py:LocalFileSystem.symlink", "abl/vpath/base/localfs.py:LocalFileSystem.readlink", "abl/vpath/base/localfs.py:LocalFileSystem.islink", "abl/vpath/base/fs.py:BaseUri.remove"]}
{"id": "C66", "title": "Execute bits of local files", "statement": "After set_exec(m) on a local file, isexec(k) holds exactly if m and k have a bit in common; content, modification time, the other permissions and all other entries are unchanged.", "quantifier": "all masks, all permissions, all local trees", "why_tests_cant": "all combinations of bits", "anchors": ["abl/vpath/base/localfs.py:LocalFileSystem.set_exec", "abl/vpath/base/localfs.py:LocalFileSystem.isexec", "abl/vpath/base/localfs.py:LocalFileSystem.info"]}
{"id": "C67", "title": "Copying local files and trees", "statement": "u.copy(v) between local files leaves the content of u at v, or at v/name if v is a directory, and u.copy(v, recursive=True) everything below u; missing directories are made for a tree; nothing else changes, in particular not the source.", "quantifier": "all local trees without links, all paths, all file contents, any number of levels", "why_tests_cant": "unboundedly many trees and destinations", "anchors": ["abl/vpath/base/fs.py:BaseUri.copy", "abl/vpath/base/fs.py:FileSystem.copy", "abl/vpath/base/localfs.py:LocalFileSystem.open"]}
{"id": "C68", "title": "Removing and creating local files and directories", "statement": "remove() of a local file or empty directory, and remove(recursive=True) of any directory, removes exactly that and what is below it; a directory with something in it is kept and ENOTEMPTY raised, a missing path raises FileDoesNotExistError. makedirs() makes exactly the missing directories.", "quantifier": "all local trees without links, all paths, any number of levels", "why_tests_cant": "unboundedly many trees", "anchors": ["abl/vpath/base/fs.py:BaseUri.remove", "abl/vpath/base/fs.py:remove_dir_recursively", "abl/vpath/base/fs.py:FileSystem.makedirs", "abl/vpath/base/localfs.py:LocalFileSystem.removefile", "abl/vpath/base/localfs.py:LocalFileSystem.removedir"]}
{"id": "C69", "title": "Walking and globbing local directories", "statement": "walk() of a local directory yields every directory at or below it exactly once with the sorted names of its directories and files, parents before children top-down and after them bottom-up, siblings by name; glob(p) yields exactly the entries whose names match p, sorted. Nothing changes.", "quantifier": "all local trees without links, all patterns, both orders, with and without followlinks", "why_tests_cant": "unboundedly many trees and patterns", "anchors": ["abl/vpath/base/fs.py:FileSystem.walk", "abl/vpath/base/fs.py:FileSystem.glob", "abl/vpath/base/localfs.py:LocalFileSystem.listdir"]}
{"id": "C70", "title": "Local trees stay well-formed", "statement": "After any sequence of copy, move, remove, mkdir, makedirs, writing, appending, symlink, set_exec and copystat with any local URIs, successful or raising, every entry is in an existing directory and no path has two entries.", "quantifier": "all sequences of operations, all URIs, all options, links included", "why_tests_cant": "unboundedly many sequences", "anchors": ["abl/vpath/base/localfs.py:LocalFileSystem.move", "abl/vpath/base/fs.py:FileSystem.copy", "abl/vpath/base/fs.py:BaseUri.remove"]}
{"id": "C71", "title": "Moves on the memory and the local backend agree", "statement": "The memory backend moves by copying and removing, the local one by renaming; started from the same files, a move leaves the same files on both.", "quantifier": "all pairs of equal file systems, all sources and destinations", "why_tests_cant": "two implementations over unboundedly many trees", "anchors": ["abl/vpath/base/fs.py:FileSystem.move", "abl/vpath/base/localfs.py:LocalFileSystem.move"]}
{"id": "C72", "title": "Names and extensions of URIs", "statement": "last() is the last name of the path, a trailing slash ignored; basename() is the last name, without the query; splitext() splits the basename at its last dot, unless only dots precede it, so that the two parts put together are the basename.", "quantifier": "all URIs; all schemes, authorities, names, queries", "why_tests_cant": "unboundedly many names and URIs", "anchors": ["abl/vpath/base/fs.py:BaseUri.last", "abl/vpath/base/fs.py:BaseUri.basename", "abl/vpath/base/fs.py:BaseUri.splitext"]}
{"id": "C73", "title": "URI(u) is a copy", "statement": "URI(u) is equal to u, has the same text, separator and class and addresses the same backend.", "quantifier": "all texts, separators and keyword arguments", "why_tests_cant": "unboundedly many URIs", "anchors": ["abl/vpath/base/fs.py:URI", "abl/vpath/base/fs.py:BaseUri.__init__", "abl/vpath/base/fs.py:BaseUri._get_scheme"]}
{"id": "C74", "title": "Which URIs share a backend", "statement": "Two URIs are served by the same backend instance exactly if their schemes, host, port, user name, password and parameters are the same; the paths do not matter.", "quantifier": "all pairs of URIs with their keyword arguments", "why_tests_cant": "unboundedly many pairs", "anchors": ["abl/vpath/base/fs.py:BaseUri._key", "abl/vpath/base/fs.py:BaseUri.__init__", "abl/vpath/base/fs.py:ConnectionRegistry.get_connection"]}
{"id": "C75", "title": "Calls on an open file", "statement": "On a file opened in the memory backend, any sequence of read, readline, write, seek, tell, truncate and close answers as its content and position demand: read returns the bytes from the position on, at most as many as asked for; readline those up to the next newline; write puts its bytes at the position, replacing what was there and filling a gap with zeros; seek and tell set and tell the position, a seek to before the beginning from the current position or the end goes to the beginning; truncate cuts the content and leaves the position; close leaves the content. A text handle gives the text the bytes encode or UnicodeDecodeError. Only the content of that file and its modification time (by write) change.", "quantifier": "all states, URIs other than the root, modes, sequences of calls with all arguments", "why_tests_cant": "unboundedly many sequences of calls", "anchors": ["abl/vpath/base/memory.py:MemoryFile", "abl/vpath/base/memory.py:MemoryFileProxy", "abl/vpath/base/memory.py:MemoryFileSystem.open"]}
{"id": "C76", "title": "Several handles", "statement": "Each handle has its own position; calls on one do not influence the answers to calls on another; a file removed while open stays usable through its handle; a closed handle refuses every call, a handle opened for reading refuses write, one opened for writing or appending refuses read and readline.", "quantifier": "all states, all pairs of handles, all interleavings of calls", "why_tests_cant": "unboundedly many interleavings", "anchors": ["abl/vpath/base/memory.py:MemoryFileProxy", "abl/vpath/base/memory.py:MemoryFile.close", "abl/vpath/base/memory.py:MemoryFileSystem._open_for_read"]}
{"id": "C77", "title": "Modification times in memory", "statement": "mtime() is the modification time info() reports; writing sets it to the present; _manipulate(mtime=t) sets it to t, copystat() copies it and the mode bits, and neither changes anything else; a missing file raises OSError(ENOENT) and nothing changes; truncating a file, and adding or removing entries of a directory, count as modifications.", "quantifier": "all states, all URIs, all times", "why_tests_cant": "unboundedly many states", "anchors": ["abl/vpath/base/memory.py:MemoryFileSystem.mtime", "abl/vpath/base/memory.py:MemoryFileSystem.copystat", "abl/vpath/base/memory.py:MemoryFileSystem._manipulate", "abl/vpath/base/memory.py:MemoryFile.write"]}
{"id": "C78", "title": "Dumps of the memory file system", "statement": "dump() writes one record for every entry, parents before their children, siblings by name: a file with its content, a link with its target, a directory; and it changes nothing.", "quantifier": "all states", "why_tests_cant": "unboundedly many trees", "anchors": ["abl/vpath/base/memory.py:MemoryFileSystem.dump"]}
{"id": "C79", "title": "Copying a file to another backend", "statement": "u.copy(v) of a file puts its content at v, or into v under the file's name if v is a directory, when u and v are on different connections (memory, local files, an archive); nothing else changes on either of them.", "quantifier": "all states of both file systems, all sources and destinations", "why_tests_cant": "unboundedly many pairs of states", "anchors": ["abl/vpath/base/fs.py:FileSystem.copy", "abl/vpath/base/fs.py:FileSystem.copystat", "abl/vpath/base/fs.py:BaseUri.copy"]}
{"id": "C80", "title": "Copying a tree to another backend", "statement": "A recursive copy between two connections makes the same tree of directories and files with the same contents at the destination, leaving out the directories named in ignore with all that is in them; nothing else changes on either connection.", "quantifier": "all trees, all states of both file systems", "why_tests_cant": "unboundedly many trees", "anchors": ["abl/vpath/base/fs.py:FileSystem.copy"]}
{"id": "C81", "title": "Moving to another backend", "statement": "u.move(v) between two connections leaves at v what was at u and removes u with all below it; nothing else changes.", "quantifier": "all files and trees, all states of both file systems", "why_tests_cant": "unboundedly many trees", "anchors": ["abl/vpath/base/fs.py:FileSystem.move", "abl/vpath/base/localfs.py:LocalFileSystem.move"]}
{"id": "C82", "title": "Copying into an archive", "statement": "Copying a file or a tree into a zip archive adds members with the contents of the files, and changes neither the other members nor the source.", "quantifier": "all archives, all sources and destinations", "why_tests_cant": "unboundedly many archives", "anchors": ["abl/vpath/base/fs.py:FileSystem.copy", "abl/vpath/base/zip.py:ZipFileSystem.open", "abl/vpath/base/zip.py:WriteStatement.__exit__"]}
{"id": "C83", "title": "Parsers by scheme", "statement": "URIParser().parse(uri) returns the scheme and the parts of the URI (user, password, host, port, path, query, fragment; for mailto user, host, query, fragment), with the defaults of the scheme or of the caller for missing parts. unparse(parse(uri)) is the URI again. scheme_of and info_of are the texts before and after the first colon.", "quantifier": "all URIs, all tables of parsers, all defaults", "why_tests_cant": "unboundedly many texts", "anchors": ["abl/vpath/base/uriparse.py:URIParser.parse", "abl/vpath/base/uriparse.py:URIParser.unparse", "abl/vpath/base/uriparse.py:URIParser.scheme_of", "abl/vpath/base/uriparse.py:URIParser.info_of", "abl/vpath/base/uriparse.py:URLParser.parse", "abl/vpath/base/uriparse.py:MailtoURIParser.parse"]}
{"id": "C84", "title": "The block of a lock", "statement": "with u.lock(fail_on_lock, cleanup) as f: the body runs with the file at u empty and its lock held. However the body ends, by returning or raising, the lock is free afterwards, the statement ends the same way, and the file is what the body left; with cleanup it is gone. Locking the same file inside the block raises LockFileObtainException with fail_on_lock.", "quantifier": "all states of the memory backend, all URIs, all bodies", "why_tests_cant": "all bodies, including those that raise at any point", "anchors": ["abl/vpath/base/fs.py:BaseUri.lock", "abl/vpath/base/memory.py:MemoryLock.__enter__", "abl/vpath/base/memory.py:MemoryLock.__exit__"]}
{"id": "C85", "title": "Removing a local tree with links in it", "statement": "u.remove(recursive=True) of a local directory removes exactly what is at and below it, links included; what the links lead to stays, wherever it is.", "quantifier": "all local trees with any links (loops, dangling, into and out of the tree), any number of levels", "why_tests_cant": "unboundedly many trees and link targets", "anchors": ["abl/vpath/base/fs.py:BaseUri.remove", "abl/vpath/base/fs.py:remove_dir_recursively", "abl/vpath/base/localfs.py:LocalFileSystem.removedir"]}
{"id": "C86", "title": "Walking and globbing local trees with links", "statement": "walk() from a local directory, reached perhaps through links, always ends and yields each directory it enters once, with the sorted names of what leads to directories and of the rest; it enters links only with followlinks=True and otherwise exactly the directories at or below the start; parents before children top-down, after them bottom-up. glob(p) yields exactly the entries whose names match p, sorted. Nothing changes.", "quantifier": "all local trees with any links, loops included, both orders, with and without followlinks, all patterns", "why_tests_cant": "unboundedly many trees and link structures; termination", "anchors": ["abl/vpath/base/fs.py:FileSystem.walk", "abl/vpath/base/fs.py:FileSystem.glob", "abl/vpath/base/localfs.py:LocalFileSystem.listdir"]}
{"id": "C87", "title": "Copying local links and trees with links", "statement": "u.copy(v, recursive=True, followlinks=False) of a local directory to a new place puts there everything below it: files with content, permissions and times, links as links to the same target; nothing else changes. With followlinks=True every path below the new place holds a copy of what the same names lead to in the source, so no links. A single link is copied as a link without followlinks, and as the file it leads to with it. The source is never changed.", "quantifier": "all local trees with any links, any number of levels, all destinations", "why_tests_cant": "unboundedly many trees and link structures", "anchors": ["abl/vpath/base/fs.py:FileSystem.copy", "abl/vpath/base/fs.py:FileSystem._copy_link", "abl/vpath/base/localfs.py:LocalFileSystem.readlink", "abl/vpath/base/localfs.py:LocalFileSystem.symlink"]}
{"id": "C88", "title": "Moving a local link moves the link", "statement": "u.move(v) of a local link puts the link itself, with its text, at v, or under its own name into v when v leads to a directory (into the directory of that name in v, if there is one and the link leads to a directory too), whatever the link leads to: a file, a directory, the destination itself or nothing; a file or link at the destination is replaced; nothing else changes. When it raises, nothing changes.", "quantifier": "all local trees, all links", "why_tests_cant": "all link targets and states", "anchors": ["abl/vpath/base/localfs.py:LocalFileSystem.move"]}
{"id": "C89", "title": "The past of a memory file system shows only in its tree", "statement": "Take two memory file systems with the same tree (names, kinds, link targets, contents, permissions, times), the same time and the same registered callbacks, whatever has been done to get there. Every program of calls, each call depending on the answers so far, gets the same answers and exceptions in both and leaves the same tree in both. Calls are all URI methods, and opening, reading, writing, seeking, tell, truncate, readline, iteration and close on the files the program has opened, also after they are moved or removed. Locks and dump are not among the calls.", "quantifier": "all programs, all pairs of reachable states with one tree, all histories", "why_tests_cant": "quantifies over all programs and all pairs of histories", "anchors": ["abl/vpath/base/memory.py:MemoryFileSystem", "abl/vpath/base/memory.py:MemoryDir", "abl/vpath/base/memory.py:MemoryFile", "abl/vpath/base/fs.py:FileSystem"]}
{"id": "C90", "title": "The order in which the operating system keeps directory entries does not show", "statement": "Take two local file systems with the same entries, stored in different orders. Every program of URI calls (copy, copystat, move, remove, makedirs, mkdir, the tests, info, set_exec, readlink, symlink, mtime, walk, listdir, glob, and reading, writing and appending whole files), each call depending on the answers so far, gets the same answers and exceptions on both and leaves the same entries on both.", "quantifier": "all programs, all sound local trees with any links, all orders of their entries", "why_tests_cant": "the order depends on the operating system and the history of the directory; all programs", "anchors": ["abl/vpath/base/localfs.py:LocalFileSystem.listdir", "abl/vpath/base/fs.py:FileSystem.walk", "abl/vpath/base/fs.py:FileSystem.glob", "abl/vpath/base/fs.py:FileSystem.copy", "abl/vpath/base/fs.py:BaseUri.remove"]}
{"id": "C91", "title": "Complete rules of the tests", "statement": "For a memory URI with an absolute path follow the names from the root, following links up to 32 inside each other. If they lead to an entry, exists is True and isfile and isdir tell its kind. If the last name or the target of a link at the end is missing, or there are too many links, all three are False. A file or a link with a missing target that is to be entered gives AttributeError, a link whose target is not absolute AssertionError. islink looks at the entry without following a link at the end: it is True for a link and False for another entry, the root, a name missing in its directory or a missing name on the way; it raises AttributeError when a file or a dead link is to be entered, or a link on the way that has the same name as the last component; too many links raise ELOOP, a link with a target that is not absolute AssertionError. Every path falls under exactly one of these cases, and nothing is changed. On all other URIs every method raises AssertionError, and an exception of a callback registered for the path comes before everything else.", "quantifier": "all states reachable by any operations, all URIs with an absolute path (also with empty names, links, paths that lead nowhere), all arguments", "why_tests_cant": "covers every path and every state, including the ones nobody would write a test for", "anchors": ["abl/vpath/base/memory.py:MemoryFileSystem.exists", "abl/vpath/base/memory.py:MemoryFileSystem.isfile", "abl/vpath/base/memory.py:MemoryFileSystem.isdir", "abl/vpath/base/memory.py:MemoryFileSystem.islink", "abl/vpath/base/memory.py:MemoryFileSystem._get_node_prev", "abl/vpath/base/memory.py:MemoryFileSystem._child", "abl/vpath/base/memory.py:MemoryFileSystem.pre_call_hook"]}
{"id": "C92", "title": "Complete rules of reading attributes, links and directories", "statement": "For a memory URI with an absolute path, info (with and without following a link at the end), mtime and isexec(mask) give the time, mode and size of the entry, its time, and whether its mode has a bit of the mask. readlink gives the target of a link and raises EINVAL on any other entry and on the root. If there is no entry they raise ENOENT for a missing name or a dead link, AttributeError if a file is to be entered (or, when links are not followed, a link on the way with the name of the last component), ELOOP for too many links, AssertionError for a link with a target that is not absolute. listdir, which leaves out empty names of the path, gives the names of the entries of a directory in ascending order and raises AttributeError on a file and the same exceptions otherwise. Every path falls under exactly one of these cases, and nothing is changed.", "quantifier": "all states reachable by any operations, all URIs with an absolute path (also with empty names, links, paths that lead nowhere), all arguments", "why_tests_cant": "covers every path and every state, including the ones nobody would write a test for", "anchors": ["abl/vpath/base/memory.py:MemoryFileSystem.info", "abl/vpath/base/memory.py:MemoryFileSystem.mtime", "abl/vpath/base/memory.py:MemoryFileSystem.isexec", "abl/vpath/base/memory.py:MemoryFileSystem.readlink", "abl/vpath/base/memory.py:MemoryFileSystem.listdir", "abl/vpath/base/memory.py:MemoryFileSystem._get_node_for_path"]}
{"id": "C93", "title": "Complete rules of mkdir and symlink", "statement": "For a memory URI with an absolute path, mkdir does nothing on the root; otherwise the names but the last are followed from the root, links included. If they lead to a directory without an entry of the last name, exactly that entry is added to the tree: an empty directory with the current time and mode 0. If there is an entry, also a dead link, EEXIST is raised. If they lead to a file, AttributeError is raised, and otherwise the exception of the lookup (ENOENT, AttributeError, ELOOP, AssertionError). symlink does the same at the place of the link, the new entry being a link with that target. When an exception is raised nothing is changed, and every URI falls under exactly one of these cases.", "quantifier": "all states reachable by any operations, all URIs with an absolute path (also with empty names, links, paths that lead nowhere), all arguments", "why_tests_cant": "covers every path and every state, including the ones nobody would write a test for", "anchors": ["abl/vpath/base/memory.py:MemoryFileSystem.mkdir", "abl/vpath/base/memory.py:MemoryFileSystem.symlink", "abl/vpath/base/memory.py:MemoryFileSystem._get_node"]}
{"id": "C94", "title": "Complete rules of removing one entry", "statement": "For a memory URI with an absolute path, remove (not recursive) raises what islink and exists raise. It removes a link (not what it leads to) or a file as removefile of the connection does, an empty directory as removedir does, and raises FileDoesNotExistError when exists is False. removefile and removedir leave out empty names of the path and do nothing on the root. removefile raises the exception of the lookup that does not follow a link at the end; otherwise exactly the entry named last() of the URI in the directory found is removed from the tree with everything below it, or KeyError is raised if there is no such entry. removedir raises the exception of the lookup of the whole path and then looks at the entry named last(): a file or no entry gives AttributeError, a link that leads nowhere the exception of its lookup, a directory with entries ENOTEMPTY, an empty directory is removed, by way of a link only the link. When an exception is raised nothing is changed, and there is a rule for every path.", "quantifier": "all states reachable by any operations, all URIs with an absolute path (also with empty names, links, paths that lead nowhere), all arguments", "why_tests_cant": "covers every path and every state, including the ones nobody would write a test for", "anchors": ["abl/vpath/base/memory.py:MemoryFileSystem.removefile", "abl/vpath/base/memory.py:MemoryFileSystem.removedir", "abl/vpath/base/fs.py:BaseUri.remove"]}
{"id": "C95", "title": "Complete rules of opening files", "statement": "For a memory URI with an absolute path, open looks for r, w and a in the options, in this order; no options means r, and options with none of them give EINVAL. r and a need a path that leads to a file: the file is open at position 0, or, for a, at its length (at position 1 when it is empty). A directory gives AttributeError, and a path that leads nowhere the exception of the lookup. w follows the names but the last to a directory (for the root: the root itself and an empty name) and raises AttributeError for a file there and the exception of the lookup otherwise. If it has no entry of the last name, an empty file with the current time and mode 0 is added, if the entry leads to a file, that file becomes such an empty file, a directory gives EISDIR, and a dead link the exception of the lookup. From then on every sequence of read, readline, write, seek, tell, truncate and close on the handle gives the answers of a file with that content and position (C75), and the tree differs from the one before in exactly this file, which has the content and time this gives. When an exception is raised nothing is changed, and there is a rule for every path and all options.", "quantifier": "all states reachable by any operations, all URIs with an absolute path (also with empty names, links, paths that lead nowhere), all arguments", "why_tests_cant": "covers every path and every state, including the ones nobody would write a test for", "anchors": ["abl/vpath/base/memory.py:MemoryFileSystem.open", "abl/vpath/base/memory.py:MemoryFileSystem._open_for_read", "abl/vpath/base/memory.py:MemoryFileSystem._open_for_write", "abl/vpath/base/memory.py:MemoryFileSystem._open_for_append", "abl/vpath/base/memory.py:MemoryFileProxy"]}
{"id": "C96", "title": "Complete rules of changing attributes", "statement": "For a memory URI with an absolute path, info with a set_info (with and without following a link at the end) sets the mode or time given in it and leaves the other one, set_exec(mode) replaces the three execute bits by the bits of mode, _manipulate(mtime=t) sets the time, and copystat sets time and mode of the destination to those of the source. In each case exactly this entry of the tree changes and only in these attributes. If there is no entry the exceptions are those of C92, for copystat first those of the source, then those of the destination (AssertionError if it is not absolute), and nothing is changed.", "quantifier": "all states reachable by any operations, all URIs with an absolute path (also with empty names, links, paths that lead nowhere), all arguments", "why_tests_cant": "covers every path and every state, including the ones nobody would write a test for", "anchors": ["abl/vpath/base/memory.py:MemoryFileSystem.info", "abl/vpath/base/memory.py:MemoryFileSystem.set_exec", "abl/vpath/base/memory.py:MemoryFileSystem.copystat", "abl/vpath/base/memory.py:MemoryFileSystem._manipulate"]}
{"id": "C97", "title": "Complete rules of copying without recursion", "statement": "For any two memory URIs u and v, u.copy(v) without recursive (following links or not) on a file system whose callbacks raise nothing does the following. If exists raises for u, so does copy; if u does not exist, it is FileDoesNotExistError (or the exception of str(u)); if u is not a file, AssertionError. The place w for the copy is v / u.last() if v is a directory, otherwise v. A link that is not followed is made anew at w with the same target, after removing a file at w, which is gone even if the rest fails. Otherwise w is opened for writing as in C95, then gets the data of the file, and, if both schemes are the same, its time and mode (otherwise the current time and mode 0); so the copy of a file onto itself, by whatever path, is empty. The exceptions are those of the steps, in this order, and everything else in the tree stays. There is a rule for any two URIs, and the result and tree it gives are the result and tree of the code.", "quantifier": "all states reachable by any operations with callbacks that raise nothing, any two URIs (also relative ones, with empty names, links, paths that lead nowhere), both values of followlinks", "why_tests_cant": "covers every pair of URIs and every state, including the ones nobody would write a test for", "anchors": ["abl/vpath/base/fs.py:FileSystem.copy", "abl/vpath/base/fs.py:BaseUri.copy", "abl/vpath/base/memory.py:MemoryFileSystem.open", "abl/vpath/base/memory.py:MemoryFileSystem.copystat"]}
{"id": "C98", "title": "Complete rules of moving anything but directories", "statement": "For any two memory URIs u and v where u does not lead to a directory, u.move(v) on a file system whose callbacks raise nothing raises what isfile raises for u, or FileDoesNotExistError if there is nothing at u (or the exception of str(u)); otherwise it copies u to v, following links, by the rules of C97, stops if that raises, and then removes u in the tree this leaves by the rules of C94. So a file moved onto itself, by whatever path, is lost, and a link to a file that is moved becomes a file. There is a rule for any two such URIs, and the result and tree it gives are the result and tree of the code.", "quantifier": "all states reachable by any operations with callbacks that raise nothing, any URI that does not lead to a directory, any destination", "why_tests_cant": "covers every pair of URIs and every state, including the ones nobody would write a test for", "anchors": ["abl/vpath/base/fs.py:FileSystem.move", "abl/vpath/base/fs.py:BaseUri.move", "abl/vpath/base/memory.py:MemoryFileSystem.removefile"]}
{"id": "C99", "title": "Complete rules of md5, glob and makedirs", "statement": "On a memory file system whose callbacks raise nothing: md5 of any URI hashes exactly the content of the file it leads to and changes nothing in the tree, or raises what open for reading raises. glob(pattern) of a URI with an absolute path gives u / n for the names n of the directory it leads to (empty names of the path left out) that match the pattern as shell patterns do, in sorted order, or raises what the first u / n that fails raises, or what listdir raises. makedirs of an ordinary path that is an existing directory followed by new names makes exactly these directories; of any other ordinary path it raises EEXIST if the path leads to a file, is a dead link or a cycle of links, AttributeError if it runs through a file or dead link, AssertionError for a link whose target is not absolute, and changes nothing.", "quantifier": "all states reachable by any operations with callbacks that raise nothing; md5: all URIs; glob: all URIs with an absolute path, all patterns; makedirs: all ordinary paths (no empty names, the URI being the usual one for the path)", "why_tests_cant": "covers every path, pattern and state", "anchors": ["abl/vpath/base/fs.py:BaseUri.md5", "abl/vpath/base/fs.py:FileSystem.glob", "abl/vpath/base/fs.py:FileSystem.makedirs", "abl/vpath/base/fs.py:BaseUri.makedirs"]}
{"id": "C100", "title": "Complete rules of the URI parser", "statement": "For every text, urisplit and UriParse give exactly what these rules say. The first ((...)) on one line is set aside, then the text is scheme: (optional, without : / ? #), //authority, path up to ? or #, ?query up to #, #fragment up to the end of the line; without // the parser raises AttributeError. The ((...)) is put back into the authority. The authority '.' is the first part of the path. Except for http and https, a fragment that is not empty belongs to the path. A connector ((...)) leaves an empty authority. The rest is user:password@host:port, where the port is what int() reads (white space around, a sign, digits, single underscores between digits), 0 if missing, and ValueError if it is no number. The query is key=value items between &; an item must have exactly one =, otherwise ValueError; both sides are stripped, the value is unquoted, and a later key replaces an earlier one. netloc is host or host:port.", "quantifier": "all texts of any length, any characters", "why_tests_cant": "the rules give the only result for every text, including all the malformed ones", "anchors": ["abl/vpath/base/uriparse.py:urisplit", "abl/vpath/base/simpleuri.py:UriParse", "abl/vpath/base/simpleuri.py:parse_query_string"]}
{"id": "C101", "title": "Complete rules of making a URI from a text", "statement": "For every text and all keyword arguments URI(text) gives exactly what these rules say. The class is chosen by the run of a-z + - before :// at the start (file if there is none): file, memory and zip have their classes, all else is BaseUri. A keyword argument uri, sep or self is a TypeError. A leading file:// is cut off, backslashes become slashes, a text with : as second character (a drive letter c:) loses it and gets a slash in front, and a text without :// gets file:// in front (file://./ if it starts with neither / nor .). The result is parsed as in C100, with the same exceptions. The user and the password are those of the text, otherwise those of the keyword arguments, which are then taken out of the extras, otherwise those of the query.", "quantifier": "all texts, separators and dictionaries of text-valued keyword arguments", "why_tests_cant": "the rules give the only result for every text and all arguments", "anchors": ["abl/vpath/base/fs.py:URI", "abl/vpath/base/fs.py:BaseUri.__init__", "abl/vpath/base/fs.py:normalize_uri"]}
{"id": "C102", "title": "Complete rules of the names of a URI", "statement": "For every URI, split() gives the text before the last slash as a URI of the same class (with / added if it ends with //, and . if it is empty) and the text after it up to ?; without a slash the text before is empty. The new URI gets as keyword arguments those of the URI and, except for http and https, the items of its query, and is made by the rules of C101, whose exceptions are those of split(). directory(n) is n of these steps (AssertionError for 0), basename() the name of the first. splitext() cuts the name at its last dot, unless there are only dots before that. last() is the text after the last slash, or if that is empty the text between the last two slashes.", "quantifier": "all URIs, including ones changed by assigning the scheme or the query, all levels", "why_tests_cant": "the rules give the only result for every URI", "anchors": ["abl/vpath/base/fs.py:BaseUri.split", "abl/vpath/base/fs.py:BaseUri.directory", "abl/vpath/base/fs.py:BaseUri.basename", "abl/vpath/base/fs.py:BaseUri.splitext", "abl/vpath/base/fs.py:BaseUri.last"]}
{"id": "C103", "title": "Complete rules of join, / and +", "statement": "For every URI and all texts, join(a1, ..., an) is the URI of the same class made by the rules of C101 from scheme://site, then the path without slashes at its end, a1 to an-1 without slashes at either end and an as it is, with slashes between, then ?query if there is a query; separators in the arguments are slashes. The site is the connector ((...)), or the authority, or host:port; a URI without scheme gets None. The keyword arguments handed on are those of C102, and the result has the query of the URI whatever its text says. join() without arguments is an IndexError. u / n is u.join(n). u + x is made from the text of u followed by x in the same way.", "quantifier": "all URIs and all lists of texts", "why_tests_cant": "the rules give the only result for every URI and all arguments", "anchors": ["abl/vpath/base/fs.py:BaseUri.join", "abl/vpath/base/fs.py:BaseUri.__div__", "abl/vpath/base/fs.py:BaseUri.__add__", "abl/vpath/base/simpleuri.py:UriParse.as_list", "abl/vpath/base/simpleuri.py:uri_from_parts"]}
{"id": "C104", "title": "Complete rules of str, path, unipath and is_absolute", "statement": "For every URI: path is the path, without the slash before a leading dot; for a local URI with another separator it is d:<sep>rest for a path /d/rest, with slashes as separators. str() of a local URI is its path; of any other it is scheme:// (left out for schemes starting with http without a host), user, :password, @, host or ((connector)), :port, path, ?k=v&... unquoted and #fragment, each only if there is one, and AttributeError without a scheme. unipath is the path, with ./ in front unless it starts with . or /. is_absolute() holds for paths that start with / and not with /. .", "quantifier": "all URIs of all classes", "why_tests_cant": "the rules give the only result for every URI", "anchors": ["abl/vpath/base/fs.py:BaseUri.path", "abl/vpath/base/fs.py:BaseUri.unipath", "abl/vpath/base/fs.py:BaseUri.is_absolute", "abl/vpath/base/fs.py:BaseUri.__str__", "abl/vpath/base/localfs.py:LocalFileSystemUri.path", "abl/vpath/base/simpleuri.py:UriParse.__str__"]}
{"id": "C105", "title": "Complete rules for looking at local files", "statement": "For every URI and every local tree, the path of the URI leads to exactly one place, found as the kernel does: from the root or the working directory, piece by piece, empty pieces and . stay, .. goes up, a link is replaced by its text, taken from the directory it is in; more than 40 links are ELOOP, a NUL in the path ValueError. exists(), isfile(), isdir() and islink() never raise and are true exactly if the place (for islink() the one before following the last link) is an entry of that kind. Reading gives the content of a file, IsADirectoryError (EISDIR) for a directory and the error of the lookup otherwise (ENOENT for a free name). listdir() gives the names in the directory in order, without repetition; readlink() the URI made from the text of the link by the rules of C101; info(), mtime() and isexec() the kind, mode, time and size of the entry. None of them changes anything.", "quantifier": "all local trees with any links, working directories and URIs", "why_tests_cant": "the rules give the only result for every tree and URI", "anchors": ["abl/vpath/base/localfs.py:LocalFileSystem.exists", "abl/vpath/base/localfs.py:LocalFileSystem.isfile", "abl/vpath/base/localfs.py:LocalFileSystem.isdir", "abl/vpath/base/localfs.py:LocalFileSystem.islink", "abl/vpath/base/localfs.py:LocalFileSystem.open", "abl/vpath/base/localfs.py:LocalFileSystem.listdir", "abl/vpath/base/localfs.py:LocalFileSystem.readlink", "abl/vpath/base/localfs.py:LocalFileSystem.info", "abl/vpath/base/localfs.py:LocalFileSystem.isexec", "abl/vpath/base/localfs.py:LocalFileSystem.mtime"]}
{"id": "C106", "title": "Complete rules for changing local files", "statement": "For every local URI and every local tree: remove() without recursion removes the file or link that the path names (not what the link leads to) or an empty directory; a directory that is not empty, is the root, or is named with . or .. at the end or by a link with a slash at the end stays, with ENOTEMPTY, EBUSY, EINVAL or ENOTDIR; what is not there is FileDoesNotExistError. mkdir() makes the directory with the mode of the umask if the name is free, slashes at the end do not matter, and an empty path is no error. u.symlink(v) makes v a link with the path of u as text, unless v is taken or ends with a slash. Opening to write or append makes or opens the file that the path leads to through all links, and refuses directories and slashes at the end with EISDIR. set_exec() replaces the execute bits. In all cases every other entry, and in case of an error every entry, stays as it is.", "quantifier": "all local trees with any links, working directories, umasks, URIs, pieces and modes", "why_tests_cant": "the rules give the only result and the only next tree for every tree and URI", "anchors": ["abl/vpath/base/fs.py:BaseUri.remove", "abl/vpath/base/fs.py:BaseUri.mkdir", "abl/vpath/base/localfs.py:LocalFileSystem.removefile", "abl/vpath/base/localfs.py:LocalFileSystem.removedir", "abl/vpath/base/localfs.py:LocalFileSystem.mkdir", "abl/vpath/base/localfs.py:LocalFileSystem.symlink", "abl/vpath/base/localfs.py:LocalFileSystem.open", "abl/vpath/base/localfs.py:LocalFileSystem.set_exec"]}
{"id": "C107", "title": "Complete rule for moving a local file or link", "statement": "u.move(v) between local URIs, u not a directory: the destination is v; if v leads to a directory, the last name of u in it; if u is a link to a directory too, the name of u joined to v first. If the name there is free, or is a file or link, the entry of u (content, mode, time or text of the link) is there afterwards, gone from its place, and nothing else changes; a link at the destination is replaced, not followed; moving onto the same place does nothing. It raises and changes nothing: with the error of the lookup when u or the directory of the destination is missing, shutil.Error when the name in the directory v is taken, EISDIR (EEXIST or ENOENT for a link) when the destination ends in a slash, ValueError for a NUL in a path. No move that raises changes anything.", "quantifier": "all local trees with any links, working directories and pairs of URIs", "why_tests_cant": "the rule gives the only result for every tree and pair of URIs", "anchors": ["abl/vpath/base/localfs.py:LocalFileSystem.move"]}
{"id": "C108", "title": "Complete rule for copying a local file or link", "statement": "u.copy(v, followlinks=f) without recursive, between local URIs: FileDoesNotExistError when u leads to nothing, AssertionError when it leads to a directory. The destination is v, or the last name of u joined to v when v leads to a directory. With f, or when u is no link, the content goes where opening the destination to write leads (through links, also to a free name); mode and time follow when both URIs have the same scheme; nothing else changes, both can be read with the same content, and a copy that raises changes nothing. A file copied onto itself by any path is emptied. Without f, a link is made anew: a file at the destination, or a link there that leads to a file, is removed first, and stays removed if making the link fails; a link copied onto itself is deleted and ENOENT raised.", "quantifier": "all local trees with any links, working directories, pairs of URIs and options", "why_tests_cant": "the rule gives the only result for every tree and pair of URIs", "anchors": ["abl/vpath/base/fs.py:FileSystem.copy", "abl/vpath/base/localfs.py:LocalFileSystem.open"]}
{"id": "C109", "title": "Complete rule of urljoin", "statement": "urljoin(base, ref) for any two texts: AttributeError exactly when one of them has no authority marked by '//'; ref itself when it has another scheme; with an authority in ref, the parts of ref with the scheme of base; otherwise (authority written '.') the path of base up to its last slash, one more slash and the path of ref, tidied up, with scheme and authority of base and query and fragment of ref. Tidying up drops empty names, '.', each name with the '..' after it and '..' at the root, keeps two leading slashes and turns more into one; the order of the steps does not matter.", "quantifier": "all pairs of texts", "why_tests_cant": "unbounded texts; the rule gives the only result", "anchors": ["abl/vpath/base/uriparse.py:urljoin", "abl/vpath/base/uriparse.py:_pathjoin", "abl/vpath/base/uriparse.py:_dirname"]}
{"id": "C110", "title": "Each memory connection is a file system of its own", "statement": "A call of a URI method, or of a method of a file opened before, whose URIs all read 'memory://', one authority (nothing, 'joe@', 'joe:pw@', ...) and a path without a question mark gives the answer and leaves the file system and the open files it would if the connection of that authority were the only one; the file systems of all other connections, the registry (but for the time of last use of that connection) and the clock stay as they are. If there is no connection for the authority yet, the call works on an empty file system and exactly one connection is added. Every file system of every connection in a process is one that operations on a single memory file system can produce.", "quantifier": "all histories of a process with any number of memory connections, all authorities without / ? # \\ ( _, all URI methods and file methods, all names of entries without a question mark", "why_tests_cant": "unboundedly many connections and histories", "anchors": ["abl/vpath/base/fs.py:with_connection", "abl/vpath/base/fs.py:ConnectionRegistry.get_connection", "abl/vpath/base/memory.py:MemoryFileSystem._initialize"]}
{"id": "C111", "title": "Programs on different memory connections do not disturb each other", "statement": "A program of URI methods and file methods that uses URIs of one authority only gets, and ends with, what it gets when run alone on the file system of its connection (an empty one if it is the first to use it), whatever calls on URIs and open files of other connections, and whatever clean-ups that do not drop its own connection, happen between its calls.", "quantifier": "all programs whose calls may depend on all answers before, all interleavings with calls of others, all states of the process", "why_tests_cant": "quantifies over programs and interleavings", "anchors": ["abl/vpath/base/fs.py:with_connection", "abl/vpath/base/fs.py:ConnectionRegistry.cleanup", "abl/vpath/base/memory.py:MemoryFileSystem._initialize"]}
{"id": "C112", "title": "Files in a memory file system stay until they are removed", "statement": "What is in a memory file system stays there until it is removed, also when the registry cleans up connections.", "quantifier": "all states of a process, all clean-ups", "why_tests_cant": "unboundedly many states; the loss needs half an hour of idle time", "anchors": ["abl/vpath/base/fs.py:ConnectionRegistry.cleanup", "abl/vpath/base/fs.py:ConnectionRegistry.__init__", "abl/vpath/base/fs.py:with_connection"]}
{"id": "C113", "title": "Memory URIs with a host are refused", "statement": "Every URI method on a memory URI with a non-empty host raises AssertionError and changes nothing; in particular no connection is made.", "quantifier": "all states of a process, all URI methods, all such URIs whose path has no question mark", "why_tests_cant": "unboundedly many states and URIs", "anchors": ["abl/vpath/base/memory.py:MemoryFileSystem._initialize", "abl/vpath/base/fs.py:with_connection"]}
{"id": "C114", "title": "The authority of a memory URI only selects the file system", "statement": "Every URI method on 'memory://' + authority + path (authority without a host) does in the file system of that authority, and answers, what the method on 'memory://' + path does in its file system, if the two file systems are the same.", "quantifier": "all authorities, paths, methods and states of the file systems", "why_tests_cant": "unboundedly many states and paths", "anchors": ["abl/vpath/base/fs.py:BaseUri.split", "abl/vpath/base/fs.py:FileSystem.makedirs", "abl/vpath/base/memory.py:MemoryFileSystem._path"]}
{"id": "C115", "title": "The connection of a URI", "statement": "u.get_connection() and v.get_connection() are one connection (while it is not closed) exactly if scheme, host, port, user, password, connector and extras of u and v agree; the extras are the keyword arguments and, except for http and https, the query, which comes first; paths, fragments and the order of the extras do not matter. An extra named like a parameter of ConnectionRegistry.get_connection raises TypeError, and an unknown scheme NoSchemeError; neither changes the registry.", "quantifier": "all reachable registries, all events between the two calls, all URIs", "why_tests_cant": "unboundedly many URIs and histories of the registry; the order of the extras is a hash question", "anchors": ["abl/vpath/base/fs.py:BaseUri.get_connection", "abl/vpath/base/fs.py:BaseUri._extras", "abl/vpath/base/fs.py:BaseUri._key", "abl/vpath/base/fs.py:ConnectionRegistry.get_connection"]}
{"id": "C116", "title": "The cleaner thread keeps its times", "statement": "As long as the registry is not shut down, its cleaner thread lives, and if it is never late by more than d, no connection stays open that has not been used for more than clean_timeout + clean_interval + 1 second + 5 d. It closes only connections that have not been used for more than clean_timeout, and its clean-ups are at least clean_interval apart.", "quantifier": "all intervals and timeouts, all sequences of registry operations, all timings of the thread", "why_tests_cant": "takes half an hour with the default timeout; unboundedly many timings", "anchors": ["abl/vpath/base/fs.py:ConnectionRegistry.cleaner", "abl/vpath/base/fs.py:ConnectionRegistry.cleanup"]}
{"id": "C117", "title": "Shutdown returns", "statement": "After shutdown() has set run_clean_thread to False, the cleaner thread, if it is never late by more than d, is gone 1 second + 6 d later, so that shutdown() returns.", "quantifier": "all intervals, all moments of the shutdown, all timings of the thread", "why_tests_cant": "unboundedly many timings", "anchors": ["abl/vpath/base/fs.py:ConnectionRegistry.shutdown", "abl/vpath/base/fs.py:ConnectionRegistry.cleaner"]}
{"id": "C118", "title": "Complete rules of a zip connection, with others changing the file", "statement": "Whatever sequence of with-blocks, exists, isfile, isdir and listdir a zip connection is put to, and whatever others do to the containing file in between (replace, damage, remove or create it), every answer and the file afterwards are exactly what these rules say. The rules speak of the file as it is now and of the members the connection saw when it last opened it successfully. Reading needs the file (ENOENT), an archive (BadZipFile) and a member of that name (FileDoesNotExistError), and gives the contents of the last member of that name. Writing adds a member, named by the path up to its first NUL, at the end of the archive as it is now, or makes an archive where there is none. Mode a is an UnboundLocalError that leaves an empty file where there was none; a mode without r, w and a is refused. The root passes every test; all else is tested against the members seen, AttributeError before anything was seen. listdir gives the empty list for a missing file, else opens the file if nothing was seen and lists the members seen. Member names to be written can be encoded in UTF-8.", "quantifier": "all sequences of uses, all archives and member names, all changes by others", "why_tests_cant": "A test runs a few sequences on a few archives; the rules cover every interleaving with changes made by others.", "anchors": ["abl/vpath/base/zip.py:13-29", "abl/vpath/base/zip.py:105-211"]}
{"id": "C119", "title": "A zip connection shows the archive as it is now", "statement": "After others have changed the containing file, reading, the tests and the listings of a connection are about the archive as it is now.", "quantifier": "all histories of the connection, all archives, all changes by others", "why_tests_cant": "The tests of the project use one connection and never change the file behind its back.", "anchors": ["abl/vpath/base/zip.py:117-131", "abl/vpath/base/zip.py:144-150", "abl/vpath/base/zip.py:184-211"]}
{"id": "C120", "title": "Complete table of the attributes of a URI", "statement": "For every URI made from a text, reading any attribute by name gives exactly the value a table lists, and AttributeError for every name not in the table. The table has the properties (scheme, port, path, unipath, is_absolute), what the object holds itself (uri, sep, extras, connection, parse_result, _scheme), the methods, and the parts of the parsed text (hostname, username, password, netloc, query, authority, vpath_connector, fragment, as_list), with credentials given as keywords or query parameters where the text has none. str() and the values the connection is looked up with are those attributes.", "quantifier": "all texts, separators and keyword arguments of which a URI can be made, all attribute names", "why_tests_cant": "A test reads a few attributes of a few URIs; delegation through __getattr__ concerns every name.", "anchors": ["abl/vpath/base/fs.py:268-382", "abl/vpath/base/fs.py:407-412", "abl/vpath/base/simpleuri.py:62-101"]}
{"id": "C121", "title": "Assigning an attribute of a URI changes its text and its connection alike", "statement": "An attribute assigned to a URI is read back and changes no other attribute, and the text of the URI and the connection used change accordingly.", "quantifier": "all URIs, all attribute names and values", "why_tests_cant": "The tests assign the query and the scheme only; which attributes the text and the connection follow is a statement about all names.", "anchors": ["abl/vpath/base/fs.py:304-374", "abl/vpath/base/simpleuri.py:62-101"]}
{"id": "C122", "title": "URIs can be copied with the copy module and pickled", "statement": "copy.copy, copy.deepcopy and a pickle round trip of a URI give an equal URI.", "quantifier": "all URIs, all recursion limits", "why_tests_cant": "There is no such test; failure for one recursion limit does not show that it fails for all.", "anchors": ["abl/vpath/base/fs.py:373-374"]}
{"id": "C123", "title": "A broken plugin does not keep the package or the other plugins from working", "statement": "Importing the package registers exactly the schemes of the entry points that can be used, each in both registries with the backend and the URI class of the last entry point of that scheme, and goes on past every entry point that cannot be used.", "quantifier": "all lists of entry points, of which any may fail in any way", "why_tests_cant": "Tests run with the installed entry points, which all work.", "anchors": ["abl/vpath/base/fs.py:1118-1136", "abl/vpath/base/fs.py:162-165"]}
{"id": "C124", "title": "A successful import gives each scheme its URI class and its backend", "statement": "After an import that succeeded, URI(text) makes an object of the URI class of the plugin that serves the text's scheme, of the basic class if there is none, and looking for a connection of a scheme calls that plugin's backend, or raises NoSchemeError and changes nothing if no plugin serves it. With the three plugins of the package, in any order and with any others of other schemes that use the basic class, URI() is the function all other properties are about.", "quantifier": "all lists of entry points with which the import succeeds, all texts and keys", "why_tests_cant": "Tests run with one list of plugins in one order.", "anchors": ["abl/vpath/base/fs.py:82-131", "abl/vpath/base/fs.py:237-250", "abl/vpath/base/fs.py:1118-1136"]}
{"id": "C125", "title": "Thinning out a walk skips just those subtrees", "statement": "If a top-down walk comes to an end, it has gone through a tree: each directory is listed with its entries, and the walk has gone into each subdirectory that is no link (into all with followlinks). The bottom-up walk of the same directory then lists the same items with the children first. And if the loop removes names from the list of directories it is given, whatever names and wherever, the walk lists exactly what is left of the tree without the subtrees of these names, in the same order.", "quantifier": "every backend whose tests and listings change nothing (memory and local in every state, archives once opened), all directories, all choices of names, with and without followlinks", "why_tests_cant": "Tests thin out no walk; the number of choices is exponential in the tree.", "anchors": ["abl/vpath/base/fs.py:998-1017", "abl/vpath/base/fs.py:739-750"]}
{"id": "C126", "title": "A lock in one memory file system does not concern the others", "statement": "While a file is locked in one memory file system (memory:///d/f), the files of another one (memory://joe@/d/f) can be locked as if it were not: the lock is granted, held for the duration of the block and freed afterwards, and the block starts with an empty file in its own file system while all others stay as they are.", "quantifier": "all numbers of open memory connections and states of their file systems, all files, all blocks, fail_on_lock or not", "why_tests_cant": "Tests lock within one memory file system; the table of locks is a class attribute shared by all of them.", "anchors": ["abl/vpath/base/memory.py:28", "abl/vpath/base/memory.py:257-281", "abl/vpath/base/fs.py:805-812"]}
{"id": "C127", "title": "Relative paths inside WorkingDirectory", "statement": "Inside a with-block of WorkingDirectory(u), where u leads to a local directory (by links or not), local URIs with relative paths name the files of that directory: every program of calls gives the answers and has the effects that it has with the absolute paths outside of the block. After the block the program is in the directory it was in before, and the outcome is that of the body, exception or not, if that directory is still there; if the body has removed it from the directory above, FileNotFoundError comes and the program stays where it is. If u leads to no directory, the body does not run and nothing changes.", "quantifier": "all local trees with links, all working directories, all URIs, all bodies and all programs of existence tests, listings, info, modes, links, reading, writing, appending, making and removing that choose each call by the answers before", "why_tests_cant": "Tests enter one directory and look at one file; programs, trees and relative paths are unbounded.", "anchors": ["abl/vpath/base/misc.py:40-51", "abl/vpath/base/localfs.py:52-126", "abl/vpath/base/fs.py:881-885"]}
{"id": "C128", "title": "The cleaner thread beside other threads", "statement": "While any number of threads look up connections, call methods of URIs and register backends, interleaved in any way with the cleaner thread, the cleaner thread never dies of an exception, provided that nobody else cleans up. A connection that at every moment was last used no longer than clean_timeout ago stays open and stays the connection of its key, and every look-up of that key returns it.", "quantifier": "all schedules of any number of threads, all intervals, timeouts and backends, connections whose close() raises included", "why_tests_cant": "schedules cannot be enumerated by unit tests; takes half an hour with the default timeout", "anchors": ["abl/vpath/base/fs.py:ConnectionRegistry.cleaner", "abl/vpath/base/fs.py:ConnectionRegistry.cleanup", "abl/vpath/base/fs.py:ConnectionRegistry.get_connection", "abl/vpath/base/fs.py:with_connection"]}
{"id": "C129", "title": "No connection is closed under a running method", "statement": "The cleaner thread does not close a connection while a method of a URI works with it, unless the method has been running for more than clean_timeout.", "quantifier": "all schedules of any number of threads and the cleaner thread", "why_tests_cant": "needs a switch of threads between two given steps of the clean-up", "anchors": ["abl/vpath/base/fs.py:with_connection", "abl/vpath/base/fs.py:ConnectionRegistry.cleanup"]}
{"id": "C130", "title": "The version of an unpacked git archive", "statement": "In a tree unpacked from git archive the version is the first, in the order of texts, of the tags of its commit that go on with a digit after the tag prefix; where git marks no name as a tag, of the names with a digit. Without such a name it is 0+unknown. The full revision and the date are those git wrote. git is not asked.", "quantifier": "all lists of names, revisions, dates and configurations", "why_tests_cant": "The lists of names are unbounded, with blanks, parentheses and marks in any place; the repository has no test of it.", "anchors": ["abl/vpath/base/_version.py:168-228", "abl/vpath/base/_version.py:615-632"]}
{"id": "C131", "title": "The version of a checkout", "statement": "In a git checkout the version is put together from the nearest tag, the number of commits since then, the abbreviated commit, whether files are changed and the branch, in the way the chosen style documents; for the style of the package it is the tag exactly when the files are those of the tag. Parsing the text of git describe loses nothing. A tag whose only .post is followed by something that is no number is a ValueError in the style pep440-pre off the tag, and so is an unknown style.", "quantifier": "all tags (with hyphens, digits or plus signs in them), numbers of commits, commits, branches and all eight styles", "why_tests_cant": "The text of git describe is parsed with a regular expression; that no tag confuses it is a statement about all tags.", "anchors": ["abl/vpath/base/_version.py:232-612", "abl/vpath/base/__init__.py:31-32"]}
{"id": "C132", "title": "Equal versions mean equal commits", "statement": "Two checkouts in which the package has the same version have the same nearest tag, the same number of commits since then, are both changed or both unchanged, and are at the same abbreviated commit unless both are exactly the tag.", "quantifier": "all pairs of checkouts", "why_tests_cant": "It is a statement about pairs of arbitrary tags, numbers and commits.", "anchors": ["abl/vpath/base/_version.py:461-485"]}
{"id": "C133", "title": "The version without git", "statement": "Where git is missing or the tree is not under its control, the version is what follows abl.vpath in the name of the directory that contains the package, or of one of the two directories above it, the nearest first; otherwise it is 0+unknown.", "quantifier": "all paths of the package and all ways for git to fail", "why_tests_cant": "Paths are unbounded, and the tests run in a checkout.", "anchors": ["abl/vpath/base/_version.py:115-136", "abl/vpath/base/_version.py:615-658"]}
{"id": "C134", "title": "Importing the package does not depend on git", "statement": "Importing the package always computes some version, whatever git prints and whether or not it is there.", "quantifier": "all behaviours of git, all keywords and paths", "why_tests_cant": "It is a statement about all outputs of another program.", "anchors": ["abl/vpath/base/_version.py:72-112", "abl/vpath/base/_version.py:232-362", "abl/vpath/base/__init__.py:31-32"]}
{"id": "C135", "title": "The keywords are read from the file as Python would", "statement": "git_get_keywords finds in the text of _version.py the three texts get_keywords() returns.", "quantifier": "all three texts without line breaks (with quotes and equals signs), all indentations, all other lines that assign none of the three", "why_tests_cant": "The regular expression searches for quotes and equals signs, which may occur in the texts in any number.", "anchors": ["abl/vpath/base/_version.py:22-32", "abl/vpath/base/_version.py:140-164"]}
{"id": "C136", "title": "The version of an unpacked source distribution", "statement": "A source distribution unpacked as abl.vpath-VERSION has the version VERSION.", "quantifier": "all versions and all directories", "why_tests_cant": "It is a statement about all places where the archive is unpacked.", "anchors": ["abl/vpath/base/_version.py:39-50", "abl/vpath/base/_version.py:115-136"]}
{"id": "C137", "title": "Methods a backend does not define", "statement": "On a connection whose class, derived from FileSystem, does not define a method, the URI method that stands for it calls the hook and then raises NotImplementedError (AttributeError for lock and _manipulate), and changes nothing. On a class that defines no method every URI method raises and changes nothing.", "quantifier": "all classes derived from FileSystem, all URI methods, all states", "why_tests_cant": "It is a statement about all classes of other packages.", "anchors": ["abl/vpath/base/fs.py:1028-1098", "abl/vpath/base/fs.py:218-232", "abl/vpath/base/fs.py:804-823"]}
{"id": "C138", "title": "Which methods of a backend each URI method needs", "statement": "The result and the effects of a URI method depend only on the backend methods listed for it: two backends that have those in common give the same result and leave the same state, whatever else they do. None of the methods listed can be left out.", "quantifier": "all pairs of backend classes, all URI methods and arguments, all states", "why_tests_cant": "It compares all pairs of classes.", "anchors": ["abl/vpath/base/fs.py:198-216", "abl/vpath/base/fs.py:519-846", "abl/vpath/base/fs.py:896-1026"]}
{"id": "C139", "title": "A backend that has what a method needs", "statement": "If a backend defines the methods a URI method needs (instead of those for links: a supports_symlinks that never answers True), and these do not raise NotImplementedError, the URI method does not raise NotImplementedError.", "quantifier": "all backend classes, all URI methods and arguments, all states", "why_tests_cant": "It is a statement about all classes and all file trees.", "anchors": ["abl/vpath/base/fs.py:519-846", "abl/vpath/base/fs.py:849-1098"]}
{"id": "C140", "title": "Backends without links", "statement": "On a backend whose supports_symlinks answers False and that defines no method for links, islink() is False, readlink() and symlink() raise OperationIsNotSupportedOnPlatform, and copy() and walk() do the same with followlinks and without.", "quantifier": "all such backend classes, all URIs, flags and states", "why_tests_cant": "It is a statement about all classes and trees.", "anchors": ["abl/vpath/base/fs.py:1063-1082", "abl/vpath/base/fs.py:903-971", "abl/vpath/base/fs.py:998-1017"]}
{"id": "C141", "title": "Invariants of a backend", "statement": "What the methods of a backend that a URI method needs keep, however they are called, the URI method keeps, also when it raises. For example walk(), glob() and md5() change nothing if listing, testing and reading change nothing, whatever the other methods do.", "quantifier": "all invariants, all backend classes, all URI methods and arguments", "why_tests_cant": "It is a statement about all invariants of all classes.", "anchors": ["abl/vpath/base/fs.py:519-846", "abl/vpath/base/fs.py:896-1026"]}
{"id": "C142", "title": "A backend's own way to copy", "statement": "If the class of a connection defines internal_copy, copy() between two URIs of the connection calls it, once and with the arguments of copy().", "quantifier": "all classes with internal_copy, all URIs and flags", "why_tests_cant": "No class in the package defines internal_copy.", "anchors": ["abl/vpath/base/fs.py:903-906", "abl/vpath/base/fs.py:268-270"]}
{"id": "C143", "title": "URIs with revisions", "statement": "The methods switch, update, log and log_by_time of a RevisionedUri raise NotImplementedError if the class of its connection, derived from RevisionedFileSystem, does not define them; other URIs do not have them.", "quantifier": "all classes, all URIs and arguments", "why_tests_cant": "No class in the package derives from RevisionedFileSystem.", "anchors": ["abl/vpath/base/fs.py:827-846", "abl/vpath/base/fs.py:1101-1115", "abl/vpath/base/fs.py:373-374"]}
{"id": "C144", "title": "What zip archives do not support", "statement": "In a zip archive mkdir, isexec, set_exec, mtime, info, sync and copystat raise NotImplementedError, readlink and symlink OperationIsNotSupportedOnPlatform, lock and _manipulate AttributeError; islink is False; remove() never succeeds. If nothing waits to be written, no method but open, copy, move and md5 changes the archive.", "quantifier": "all archives, URIs and arguments", "why_tests_cant": "It is a statement about all archives and all calls.", "anchors": ["abl/vpath/base/zip.py:95-216", "abl/vpath/base/fs.py:570-591", "abl/vpath/base/fs.py:1028-1098"]}
{"id": "C145", "title": "A temporary file is read once and removed", "statement": "In the block 'with TempFileHandle(name) as h', h.read(limit) returns, call after call, the next characters of the text that the file had when it was opened: as many as asked for, fewer at the end, all the rest for a negative limit; whatever is done to the file tree meanwhile. However the block ends, the entry of that name is removed in the end - a link itself, not what it leads to - and the outcome is that of the body; only if the entry cannot be removed, for example because the body has closed h, that error comes instead. A body that only reads changes nothing else. If the name cannot be opened, the body does not run and nothing changes. After h.close() reading raises ValueError.", "quantifier": "all local trees with links, all names, all programs as bodies, all limits, all decodings", "why_tests_cant": "unboundedly many programs, trees and limits", "anchors": ["abl/vpath/base/misc.py:TempFileHandle"]}
{"id": "C146", "title": "Removing a local tree touches nothing outside", "statement": "u.remove(recursive=True) of a local URI changes nothing outside the directory that its path leads to, whatever the names of the files in it, whatever links are there, and however the call ends.", "quantifier": "all local trees with links, all names, all outcomes", "why_tests_cant": "names and trees are unbounded; the escape needs particular names", "anchors": ["abl/vpath/base/fs.py:remove_dir_recursively", "abl/vpath/base/fs.py:BaseUri.remove", "abl/vpath/base/fs.py:BaseUri.join"]}
{"id": "C147", "title": "Removing local files only removes, and does it when it returns", "statement": "Whatever u.remove(), recursive or not, of a local URI does and however it ends, every entry of the file system afterwards is as it was or gone; nothing is made or changed. If the call returns, the path of u named an entry (itself, not what a link at its end leads to), and nothing is left at or below it.", "quantifier": "all local URIs, all local trees with links, both flags", "why_tests_cant": "trees, links and URIs are unbounded", "anchors": ["abl/vpath/base/fs.py:remove_dir_recursively", "abl/vpath/base/fs.py:BaseUri.remove", "abl/vpath/base/localfs.py:LocalFileSystem.removefile", "abl/vpath/base/localfs.py:LocalFileSystem.removedir"]}
{"id": "C148", "title": "Copying to a local destination writes nothing outside of it", "statement": "u.copy(v), recursive or not, to a local v changes nothing outside of the place where the copy goes (v, or a new entry named like the source if v is a directory), apart from making missing directories on the way to it, whatever the source holds and however the call ends. Everything that was there stays there and keeps its kind.", "quantifier": "all sources (local trees, archives, memory trees), all names in them, all destinations, all outcomes", "why_tests_cant": "names, trees and archives are unbounded; the escape needs particular names", "anchors": ["abl/vpath/base/fs.py:FileSystem.copy", "abl/vpath/base/fs.py:BaseUri.join", "abl/vpath/base/zip.py:ZipFileSystem.listdir", "abl/vpath/base/localfs.py:LocalFileSystem.open"]}
{"id": "C149", "title": "What a method of a URI asks of its backend", "statement": "A method of a URI that returns has made exactly the calls of its backend that the method's protocol prescribes, in that order, with those arguments, and its result is the one the answers determine; conversely a list of calls and answers that follows the protocol and that the backend can give is the run. The protocols: a single call behind its hook for the plain methods; md5 opens for reading, reads blocks of 4096 until a false one and closes; a file copy opens the source for reading, then the destination for writing, moves blocks of 8192, closes the destination, then the source, then copies the stat if the schemes are equal; links are read and made again unless followed; makedirs asks and makes the missing directories from the outside; walks list, sort, ask for the kinds and descend; removal goes from the leaves up; a move is a copy and a removal; internal_copy takes the place of the copy where it is known to serve. Questions call nothing that changes anything; a copy writes only to files opened for writing, removes no directory, and a file only where it puts a link.", "quantifier": "all classes derived from FileSystem, all their states, all methods, arguments and runs that return", "why_tests_cant": "backends, trees, contents and numbers of calls are unbounded", "anchors": ["abl/vpath/base/fs.py:FileSystem.copy", "abl/vpath/base/fs.py:FileSystem.walk", "abl/vpath/base/fs.py:FileSystem.makedirs", "abl/vpath/base/fs.py:BaseUri.remove", "abl/vpath/base/fs.py:BaseUri.md5", "abl/vpath/base/fs.py:remove_dir_recursively"]}
{"id": "C150", "title": "Copying between file systems block by block", "statement": "u.copy(v) and u.move(v), with any arguments, between a memory file system, the local files and an archive, or between two memory file systems, do the same as if every file were read to its end and then written in one piece: they raise the same exception or none, and the files on both sides are the same afterwards (contents, times, modes, entries), so that no later program gets another answer. This is so for any size of the blocks, for every state, when opening the source or the destination fails half-way, and for a local file copied onto itself. The archive gets a member once, when the file is closed.", "quantifier": "all URIs, all arguments of copy and move, all states of the two file systems (reachable ones for memory), all block sizes above 0", "why_tests_cant": "Tests copy some small files that fit into one block; the number of blocks, the size of the last one, the files that fail to open and the states are unbounded.", "anchors": ["abl/vpath/base/fs.py:FileSystem.copy", "abl/vpath/base/memory.py:MemoryFileProxy", "abl/vpath/base/zip.py:WriteStatement", "abl/vpath/base/localfs.py:LocalFileSystem.open"]}
{"id": "C151", "title": "Everything in a memory tree can be seen", "statement": "Two memory file systems that no program of URI and file calls tells apart have the same tree (every entry with its kind, content, link target, time and mode, at every place, also below names that can only be reached through a link) and the same clock, provided the callbacks set on them raise nothing. Together with C89, when the callbacks are the same: the programs get the same answers if and only if tree and clock are the same.", "quantifier": "all pairs of reachable states of the memory backend whose callbacks raise nothing; all programs of calls, each depending on the answers before it", "why_tests_cant": "A test looks at the places it knows of; the claim is that no place and no attribute is out of reach of every program, for every pair of states.", "anchors": ["abl/vpath/base/memory.py:MemoryFileSystem._child", "abl/vpath/base/memory.py:MemoryFileSystem.info", "abl/vpath/base/memory.py:MemoryFileSystem.readlink", "abl/vpath/base/memory.py:MemoryFileSystem.symlink"]}
{"id": "C152", "title": "Exactly which paths, names and suffixes a URI keeps", "statement": "URI(p).path is p if and only if p has no question mark before its first #, something without a line break behind that #, no backslash, no ((...)) group, no ://, no colon as second character, and begins with a slash not followed by a dot, or is '.', or begins with './' or '.#'; it is './' + p if and only if the same holds of p and p begins with neither slash nor dot. For a directory d of a memory file system or of the local one and a name n without slash, (d / n).path is d.path + '/' + n if and only if n has none of these (in the root n must also not begin with a dot, locally not with a colon either); (d + s).path is d.path + s if and only if s has no such character and no group arises.", "quantifier": "all texts, all names without slash, all suffixes; all directories whose path has no ?, #, backslash, (( (and locally no ://)", "why_tests_cant": "An equivalence over all strings: a test shows that some text works or fails, not that no other text does.", "anchors": ["abl/vpath/base/fs.py:URI", "abl/vpath/base/fs.py:BaseUri.__init__", "abl/vpath/base/fs.py:BaseUri.join", "abl/vpath/base/fs.py:BaseUri.__add__", "abl/vpath/base/uriparse.py:urisplit"]}
{"id": "C153", "title": "Exactly which dictionaries a query string gives back", "statement": "parse_query_string(urlencode(d)) == d if and only if d is not empty, every key consists of letters, digits and _.-~, and every value can be encoded. Every other non-empty dictionary that can be encoded comes back with the same values under quoted keys; the empty one raises ValueError; urlencode raises UnicodeEncodeError just for texts that cannot be encoded.", "quantifier": "all dictionaries of texts", "why_tests_cant": "An equivalence over all dictionaries: tests show that some come back, not that no others do.", "anchors": ["abl/vpath/base/simpleuri.py:parse_query_string"]}
{"id": "C154", "title": "Where dirname leads beyond the top", "statement": "For a URI with a host and k names, dirname(max(1,k)) has the same scheme, credentials, host and port and the empty path. dirname(level) for greater levels is a local URI with a relative path: ./SCHEME:/ first, then ./SCHEME:, and then ., ./file:/ and ./file: in turn for ever, so that no level is a fixed point. For a relative local path of k names, dirname(level) drops level names up to level k, giving . there, and goes round the same three paths after that.", "quantifier": "all URIs of the grammar with a host, all relative paths of ordinary names, all levels", "why_tests_cant": "All levels, without bound, and all URIs.", "anchors": ["abl/vpath/base/fs.py:BaseUri.split", "abl/vpath/base/fs.py:BaseUri.directory", "abl/vpath/base/fs.py:BaseUri.__init__"]}
{"id": "C155", "title": "What the values in a query mean, and how a query is written", "statement": "parse_query_string('k=v') is {k: w} where w is what v stands for: a plus sign is a space, % with two hexadecimal digits (small or capital) is a byte, any other character is itself; runs of bytes are read as UTF-8, and the longest beginning of a character that is not completed, or one byte that begins none, is replaced by one U+FFFD; characters outside ASCII stand for themselves and end a run. Every text has exactly one reading. uri_from_parts(scheme, netloc, path, d) is scheme://netloc path for an empty d and otherwise has ?k=v&k=v appended, in the order of d, with every byte of the UTF-8 form other than letters, digits and _.-~ written as % and two capital digits, a space as a plus sign; what is written so is read back.", "quantifier": "all texts and all dictionaries", "why_tests_cant": "All texts, including every way in which UTF-8 can be broken.", "anchors": ["abl/vpath/base/simpleuri.py:parse_query_string", "abl/vpath/base/simpleuri.py:uri_from_parts"]}
{"id": "C156", "title": "URIParser completely", "statement": "For every text, table of parsers and list of defaults, URIParser.parse returns or raises what a rule says: the errors of urisplit; TypeError without an authority; ValueError for a number of defaults other than seven and for a mailto path without @; otherwise the scheme (the text before the first colon) and the seven parts, None replaced by the defaults, or the four of mailto. info_of is the text between the first two colons and raises IndexError without a colon. For every tuple unparse returns or raises what a rule says; for what parse has returned the scheme is taken for the user, the user for the password, the password for the host and so on: //SCHEME:USER@PASSWORD:HOST PORT?PATH#QUERY, or TypeError if there is no password.", "quantifier": "all texts, tables, defaults and tuples", "why_tests_cant": "All texts and tuples, with an equivalence: no other outcome is possible.", "anchors": ["abl/vpath/base/uriparse.py:URIParser.parse", "abl/vpath/base/uriparse.py:URIParser.unparse", "abl/vpath/base/uriparse.py:URLParser.parse", "abl/vpath/base/uriparse.py:URLParser.unparse", "abl/vpath/base/uriparse.py:MailtoURIParser.unparse"]}
{"id": "C157", "title": "Calls with URIs of two memory connections", "statement": "In a process with any number of memory connections, u.copy(v, ...) and u.move(v) with URIs of two of them do what they do on these two file systems alone: the same answer or error, the same two file systems afterwards, and nothing else changes but the times the two connections were last used. A file copied to a new name or over a file of another connection is there with its content and nothing else in that file system changes; but its times and permissions are set on whatever has the destination's path in the source's own file system, and if nothing has, the error of that lookup is raised although the copy is there. copystat, symlink and sync use the connection of the first URI alone and take the second URI's path in it.", "quantifier": "all processes reached by any calls and clean-ups, all pairs of open connections, all URIs of them, all options", "why_tests_cant": "unboundedly many histories, file systems and pairs of connections", "anchors": ["abl/vpath/base/fs.py:FileSystem.copy", "abl/vpath/base/fs.py:FileSystem.move", "abl/vpath/base/fs.py:with_connection", "abl/vpath/base/memory.py:MemoryFileSystem.copystat"]}
{"id": "C158", "title": "What split() gives for a joined URI", "statement": "For every URI u (any scheme, authority or connector, path with any number of trailing slashes, query) and every ordinary name n, (u / n).split() is (d, n), where d has the scheme, host, port, credentials and connector of u, the path of u without its trailing slashes (where nothing is left of it, / without an authority and no path with one) and no query; dirname() is d, basename() is n and last() is n followed by the query text. d == u if and only if u has no query and either no trailing slash, or the path / and no authority.", "quantifier": "all URIs of the grammar, all queries, all numbers of trailing slashes, all ordinary names", "why_tests_cant": "unboundedly many texts, queries and slashes", "anchors": ["abl/vpath/base/fs.py:BaseUri.split", "abl/vpath/base/fs.py:BaseUri.join", "abl/vpath/base/fs.py:BaseUri.last"]}
{"id": "C159", "title": "Parts of one memory file system do not affect each other", "statement": "Let K and L be disjoint sets of names at the top of a memory file system, such that below the names of each no link leads out of them, and names contain no ?, #, backslash or \"((\", and no entry at the top has an empty name. A URI method, or opening a file, writing or reading it and closing it, all URIs being memory:///c/... with c in K and without query, answers the same and leaves the same below K whatever is below other names; it changes nothing below other names and no callback of theirs. So in any sequence of such calls of two parties, one with K and one with L, and of steps of the clock, each party gets the answers it would get if the other did nothing, and finds the same below its names; and two calls, one of each, may be swapped. The other party may also act in the middle of copy, move, remove, makedirs, walk and glob, between any two operations of the file system. With a link leading out, and with a query (memory:///a?x=/b: remove() then removes /b), this fails.", "quantifier": "all sets of names, all reachable states, all calls with all arguments, all sequences of calls of two parties", "why_tests_cant": "a statement about all interleavings of all calls and about all contents of the rest of the file system", "anchors": ["abl/vpath/base/memory.py:MemoryFileSystem", "abl/vpath/base/fs.py:BaseUri"]}
{"id": "C160", "title": "Local files at and below one directory do not affect, and are not affected by, the others", "statement": "Let D be a path given by names, the first not starting with a dot, the places above it being directories. Let the names on the way to D and below it contain no ?, #, colon, backslash, \"((\" or \"..\", and let every link at or below D hold an absolute path at or below D. A method (copy, copystat, move, remove, makedirs, mkdir, exists, isfile, isdir, islink, isexec, set_exec, readlink, symlink, mtime, info, walk, listdir, glob, reading, writing, appending) on URIs file://D/... whose paths contain none of these answers the same, and leaves the same at and below D, whatever is elsewhere; it changes nothing elsewhere, and links still do not lead away afterwards. The same holds for programs of such calls. So in any sequence of calls of two parties, each in a directory of its own that is not at or below the other's, and of steps of the clock, each party gets the answers it would get alone, and two calls, one of each, may be swapped. With a link leading out, and with \"..\" in a path, this fails.", "quantifier": "all directories, all file systems, all calls with all arguments, all programs, all sequences of calls of two parties", "why_tests_cant": "a statement about all interleavings of all calls and about all contents of the rest of the file system; tests see the one tree they made", "anchors": ["abl/vpath/base/localfs.py:LocalFileSystemUri", "abl/vpath/base/fs.py:BaseUri"]}
{"id": "C161", "title": "What other processes do elsewhere, even between the system calls of a method, does not show", "statement": "Let D be a directory and its files and links as in C160. While a method for URIs file://D/... runs, let other processes do anything, before each of its system calls, that leaves the files at and below D, the directories above D, the clock and the umask as they are. Then the method gives the answer it would give alone, and leaves at and below D what it would leave alone; the same holds for programs that choose each call by the answers to those before. It does not disturb the others either: whatever is true because of the rest of the file system and is kept true by what the others do is true after the call. System calls (unlink, rmdir, mkdir, symlink, chmod, copystat, opening, writing, rename) and whole methods for paths at and below a directory E, neither of D and E being at or below the other, are of this kind if the links at and below E do not lead away. If another process acts at or below D, the answer may differ.", "quantifier": "all directories, all file systems, all calls with all arguments, all actions of others at all points between system calls", "why_tests_cant": "a statement about all interleavings at system calls with arbitrary other processes; a test cannot stop a method between two system calls at every place with every possible change in between", "anchors": ["abl/vpath/base/localfs.py:LocalFileSystem.removedir", "abl/vpath/base/localfs.py:LocalFileSystem.move", "abl/vpath/base/localfs.py:LocalFileSystem.info", "abl/vpath/base/fs.py:FileSystem.copy", "abl/vpath/base/fs.py:BaseUri.remove", "abl/vpath/base/fs.py:FileSystem.makedirs"]}
{"id": "C162", "title": "A method stopped before any of its system calls has changed nothing elsewhere", "statement": "Let D be a directory and its files and links as in C160. Let a method for URIs file://D/... be stopped before any one of its system calls: where it would make that call, and every call it might make afterwards, an exception is raised (as by a signal handler, for instance KeyboardInterrupt). Then the files that are not at or below D, the current directory, the clock and the umask are as before, the directories above D are still there, and no link at or below D leads away from it. The answer, and what is left at and below D, depend on nothing but what was at and below D, the clock and the umask: two file systems that agree there still agree, and a program run afterwards that stays at and below D gives the same answers in both. What is left at and below D may be neither the old nor the new: a file that was to be overwritten may be empty.", "quantifier": "all directories, all file systems, all calls with all arguments, all numbers of system calls made before, all exceptions", "why_tests_cant": "a statement about every point at which every call can be interrupted, on every file system; a test raises the exception at a few points of a few calls", "anchors": ["abl/vpath/base/localfs.py:LocalFileSystem.removedir", "abl/vpath/base/localfs.py:LocalFileSystem.move", "abl/vpath/base/fs.py:FileSystem.copy", "abl/vpath/base/fs.py:BaseUri.remove", "abl/vpath/base/fs.py:FileSystem.makedirs"]}
{"id": "C163", "title": "remove() and makedirs() stopped anywhere and called again", "statement": "Let remove() or makedirs() of a local URI be stopped before any one of its system calls: where it would make that call, and every call it might make afterwards, an exception is raised. After remove() every entry of the file system is as it was or gone, wherever it was stopped, and current directory, clock and umask are as before. If remove() is called again, stopped again any number of times, and at last returns, then all of what the path named before the first call, and everything below it, is gone, and still every other entry is as it was or gone. After makedirs() every entry that was there is as it was, and every entry that is new is a directory with the mode given by the umask.", "quantifier": "all URIs, all file systems whose entries have their directories, all numbers of system calls made before each stop, all numbers of stops, all exceptions", "why_tests_cant": "a statement about every sequence of interruptions at every system call, on every file system", "anchors": ["abl/vpath/base/fs.py:BaseUri.remove", "abl/vpath/base/fs.py:BaseUri.makedirs", "abl/vpath/base/fs.py:FileSystem.makedirs", "abl/vpath/base/localfs.py:LocalFileSystem.removefile", "abl/vpath/base/localfs.py:LocalFileSystem.removedir"]}
{"id": "C164", "title": "makedirs() stopped any number of times and called again ends as if it had never been stopped", "statement": "Let a local file system have no links, and names without signs that a URI reads in another way. Let J be a directory in it and J/b1/.../bn a path of which b1 is not in J. Let makedirs() of that path be stopped before any one of its system calls (an exception is raised there), and this any number of times, one call after the other. Then every entry that was there is as it was, and what is new are directories among J/b1, J/b1/b2, ..., with the mode given by the umask. Called once more, makedirs() returns, all of J/b1, ..., J/b1/.../bn are directories, and every other path holds the file contents or directory it held before the first call, or nothing if it held nothing.", "quantifier": "all such file systems, all paths, all numbers of stopped calls, all numbers of system calls made before each stop, all exceptions", "why_tests_cant": "a statement about every sequence of interruptions at every system call, on every file system without links", "anchors": ["abl/vpath/base/fs.py:BaseUri.makedirs", "abl/vpath/base/fs.py:FileSystem.makedirs", "abl/vpath/base/localfs.py:LocalFileSystem.mkdir"]}
{"id": "C165", "title": "Recursive remove() stopped any number of times and called again ends as if it had never been stopped", "statement": "Let a local file system have no links, and names without signs that a URI reads in another way. Let remove() of a path in it be stopped before any one of its system calls (an exception is raised there), and this any number of times, one call after the other, recursive or not. Then every entry that is not at or below the path is as it was, and every entry at or below the path is as it was or gone. Called once more, remove(recursive=True) returns, or raises FileDoesNotExistError if the path itself is gone already. In both cases nothing is left at or below the path, and every other path holds the file contents or directory it held before the first call, or nothing if it held nothing.", "quantifier": "all such file systems, all paths in a directory, all numbers of stopped calls, all numbers of system calls made before each stop, all exceptions", "why_tests_cant": "a statement about every sequence of interruptions at every system call, on every file system without links", "anchors": ["abl/vpath/base/fs.py:BaseUri.remove", "abl/vpath/base/fs.py:FileSystem.walk", "abl/vpath/base/localfs.py:LocalFileSystem.removefile", "abl/vpath/base/localfs.py:LocalFileSystem.removedir"]}
{"id": "C166", "title": "copy() of a file stopped any number of times and called again ends as if it had never been stopped", "statement": "Let a local file system have no links, and names without signs that a URI reads in another way. Let copy() of a file be stopped before any one of its system calls (an exception is raised there), and this any number of times, one call after the other; the place the copy goes to (the path given, or the file's name in it if it is a directory) being another file or free. Then every entry but the one there is as it was, and the one there is as it was, or a file. Called once more, copy() returns, the contents there are those of the source, and every other path holds the file contents or directory it held before the first call, or nothing if it held nothing.", "quantifier": "all such file systems, all files and destinations, all numbers of stopped calls, all numbers of system calls made before each stop, all exceptions", "why_tests_cant": "a statement about every sequence of interruptions at every system call, on every file system without links", "anchors": ["abl/vpath/base/fs.py:BaseUri.copy", "abl/vpath/base/fs.py:FileSystem.copy", "abl/vpath/base/localfs.py:LocalFileSystem.copystat", "abl/vpath/base/localfs.py:LocalFileSystem.open"]}
