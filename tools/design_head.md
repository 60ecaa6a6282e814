# Formal model of SVDSuite in Rocq (Coq 8.16.1)

Source: `/repo/src/svdsuite` at the pinned commit (read as text, never run).
Model and proofs: `rocq/theories/*.v`, standard library only.  Generated by `tools/gen_design.py` from `tools/design_*.md`, `properties.jsonl`
and `MANIFEST.json`.

## How the code is modelled

* Shallow, executable Gallina functions mirror the Python functions branch by branch.  Every definition of a model file cites the file and the
  lines in `/repo`; simplifications are stated there.  Python `int` = `Z`, `None | T` = `option T`, lists = `list`, dataclasses = records, the
  `Register | Cluster` union = nested inductive types.
* Exceptions and `warnings.warn` calls are values: `M A` (Base.v) = the warnings issued so far together with either a result or an exception
  (class + site).  A raise keeps the warnings issued before it.
* Loops are structural recursion or folds.  Loops of the code without structural measure run on fuel with the distinguished outcome
  `EOutOfFuel`: the main loop of the resolver (fuel is an argument of `process_device`; statements quantify over it: `Processes d ws dev` means
  "for some bound on the rounds", `Processes_det`: the outcome does not depend on it) and the search for alternates (a theorem shows that the
  fuel passed suffices).
* Specifications (`Spec*.v`) use the data types and the text/number vocabulary only, never the function that the theorem is about.

| file | models |
|----|----|
| Base.v | exceptions, warnings, Python's stable sort |
| PyStr.v, PyInt.v | the `str` and `int` operations used (`split`, `strip`, `replace`, `lower`, `in`, `int(text, base)`, `str(int)`, `hex`) |
| Types.v | model/types.py, model/parse.py, model/process.py (the data classes) |
| EnumModel.v | process.py:1184-1344 (`_ProcessEnumeratedValueContainer`, validator, default extension) |
| DimModel.v | process.py:471-503, 1091-1181 (`_ProcessDimension`) |
| ElemModel.v | process.py:136-464 (`_process_device/_cpu/_peripheral/_cluster/_register/_field`) |
| ResolveModel.v | resolve/graph_elements.py, graph.py, graph_builder.py, resolver.py, process.py:90-134 |
| FinalModel.v | process.py:506-1088 (`_InheritProperties`, `_ValidateAndFinalize`), `from_intermediate_*` |
| ProcessModel.v | process.py:80-134, the whole pipeline |
| MapModel.v | map.py, model/map.py |
| ConvertModel.v | util/process_parse_model_convert.py |
| ParseModel.v | parse.py over an XML element tree |
| SerializeModel.v | serialize.py, and the effect of writing and reading a tree (`Reread`) |
| XmlReadModel.v | util/xml_parse.py over an arbitrary decoder |
| LinkModel.v | parse.py, util/process_parse_model_convert.py (objects and their `parent`) |
| LogModel.v, DrawModel.v | resolve/logger.py, util/html_generator.py, graph.py:352-400 (what is drawn) |
| ValidateModel.v | validate.py over an arbitrary XML library and file system |

Theorems are in `Props*.v`; the lemmas they rest on in `*Facts*.v`, `Expand*.v`, `RoundTrip.v`, `ResolveWF.v`, `ResolveInv.v`, `FinalErr.v`;
witnesses in `Samples.v`, `SamplesParse.v` and `Example`s beside the theorems (`Cxx_nonvacuous`).

A name ending in `_refuted` is a machine-checked counterexample: the property, read literally, is false of the code, and the theorem exhibits a
description (evaluated by the kernel) that violates it.  The `_partial` theorems next to it say what does hold.

## Plan per property
