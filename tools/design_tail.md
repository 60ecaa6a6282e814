
## Trusted base

* Coq's kernel (8.16.1).  `Print Assumptions` reports "Closed under the global context" for every theorem named in MANIFEST.json (the commands
  are at the ends of the `Props*.v` files).  No axioms are used or declared; vcheck lists `Coq.ssr.ssrunder.Under_rel.*` because the standard
  library's ssreflect file, loaded by a tactic library, declares these module-type fields; no theorem depends on them.
* The faithfulness of the reading of the Python code (nothing was run).
* Python and library semantics transcribed by hand: `int()`, `str()`, `re.match` for the six patterns used, `str.split/strip/replace/lower`,
  stability of `list.sort`, `itertools.product`, dict order; rustworkx' `PyDiGraph` as described at the head of ResolveModel.v (reuse of freed
  indices, order of edges and successors, refused cycles, lexicographical topological sort); lxml's tree access, and for C27
  what `tostring` followed by parsing does to a tree (`Reread` in SerializeModel.v: empty text becomes absent text, everything else is kept).
* For C57/C58: the transcription of `schema/1.3.11.xsd` in SpecSchema.v and the definition of validity there (W3C XML Schema as far as that file
  uses it; simplifications at the head of the file), and `FromFile` in SchemaKept.v (libxml2 gives an element without text no text, not an empty one).
* Where Python iterates a `set` of node indices while copying a subtree, the model follows CPython's hash table for small integers
  (`set_order` in ResolveModel.v, compared with lists obtained from Python's own `set` on random inputs); the lemmas about copying hold for
  any order of the same nodes.
* Object sharing: the instances of an array have the same child nodes, and an array inside of an array puts the same processed objects
  below each instance of the outer one; the finalisation and the inheritance of properties write into these objects, where the model works with
  values.  The writes (sorted children, sizes, effective properties) depend only on the object and on the properties of its parent, which are
  equal for the instances of one array, so a second write finds what it would write.  Subtrees copied for derived elements hold copies
  (`copy.copy`) whose lists are replaced, never changed in place.

## Not modelled

* HTML logging: the logger, the page (LogModel.v) and the input of Graphviz (DrawModel.v) are modelled; Graphviz, `_modify_svg` (lxml), gzip/base64 and the two
  page templates are parameters, the first two may raise.  When the garbage collector destroys the logger is not modelled (`destroy` is that event).
* lxml's XMLSchema (compilation, verdicts) and the file system are parameters of ValidateModel; of packaging.version only releases N(.N)* are modelled.
* File system access, `__repr__`, object identity and the `parent` back pointers outside LinkModel.v (the other models keep values, not references), the `parsed` back pointers of processed objects.
* Strings are byte strings (Coq `string`, UTF-8); `lower()/upper()/isdigit()/strip()` and `\d`, `\s` are modelled for ASCII.
* CPython's 4300 digit limit for int<->str conversion, memory limits, the recursion limit.
* Warnings are a list; Python's warning filters (once per location) are not modelled.

## Tests of the theorems

`seeded/mutants.py` lists edits of the model that mimic realistic bugs; `seeded/run.py` applies each in a scratch copy, rebuilds and records which
files and theorems fail; `seeded/LOG.jsonl` is the log (one line per attempt, with the theorems tightened in response).
