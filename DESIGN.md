# Formal model of psygnal in Rocq/Coq 8.16.1

Subject: pyapp-kit/psygnal at the pinned commit in /repo (`src/psygnal`).
Nothing of it is run; the model is written by reading the code.

* `properties.jsonl`: the properties, in terms of the API.
* `rocq/theories`: the model, the proofs, the theorems (`Props*.v`).
* `MANIFEST.json`: which theorems say what about which property.
* `seeded/LOG.jsonl`: wrong programs the theorems were tried on.
* `tools/`: generators of `properties.jsonl` and `MANIFEST.json`, and `mutate.py`, which
  applies an edit to a scratch copy and reports the theorems that fail.

## 1. Shape of the model

One shared engine models `SignalInstance`, `SignalRelay`, weak callbacks and the thread
queues.  Every class built on signals (containers, dataclasses, EventedModel, proxies,
monitor) is a client program of that engine.

* `Base.v`: Python values, exceptions, signatures, callables, slot keys.
* `Core.v`: the engine.
  * `world`: state of every signal (slots, flags, queues, depth), current emitter,
    debug hook, dead objects, weak references, per-thread queues, a ghost trace of
    events, and a component `U` owned by client code (container contents, fields).
  * `prog`: what Python client code does, as a tree of API calls (`op`).  The
    continuation of a call sees its result or its exception, so client code can
    branch on results, catch exceptions, and re-raise.  `Halt` stops the observation:
    the worlds reached by halting runs are all intermediate states.
  * callbacks are *arbitrary*: a function `e_body` of the environment gives, for a
    callback, its arguments and the whole world, the program it runs.  Theorems
    quantify over the environment.
  * `exec E n p w`: runs `p` with fuel `n`.  `None` means out of fuel and never counts
    as a behaviour; the theorems are about runs that return `Some` (`runs`, `steps`).
    `exec` is monotone in fuel (`exec_mono`), so results do not depend on the fuel.  That
    runs exist at all is the subject of C60.
* `Spec*.v`: vocabulary of the statements, independent of how the model computes.
* `Props*.v`: theorems, an `Example ..._case` with a concrete non-trivial instance beside
  each, and `Print Assumptions`.
* all other files: proof infrastructure (frame rule `Frame`, inversion `Fuel`, trace facts
  `Trace`, `Top`, invariants `Inv`, `Dead`, `Conn`, program logics `Does`, `Through`,
  `Client`, `Rely`, `Guard`, termination `Ends`).

Code with threads, time or object identity is modelled separately, as transition systems
in which anything that may happen next can happen: `Throttle.v`, `Threads.v`, `Descr.v`,
`Share.v`.

"Refuted" below means: the statement is false of the code, a theorem `..._refuted` exhibits
a concrete run of the model, and a separate theorem (`_partial` if restricted) proves the
strongest true part found.

## 2. What is modelled

| source | functions | file |
|--------|-----------|------|
| `_signal.py` | `SignalInstance`: connect, connect_setattr, connect_setitem, disconnect*, `_append_slot`, `_remove_slot`, `_try_discard`, `_slot_index`, `_check_nargs`, `_check_types`, emit, emit_fast, `__call__`, `_run_emit_loop` and its three inner loops, block, unblock, blocked, pause, resume, paused, `__len__`, `__contains__`, `_SignalBlocker`, `_SignalPauser`, `Signal._emitting`, `current_emitter`, set/get debug hook | Core |
| `_signal.py` | `Signal.sender`, `SignalInstance.instance`, `_instance_ref` | PropsSuppress |
| `_signal.py` | `_acceptable_posarg_range`, `_parameter_types_match`, `_is_subclass` and `_get_signature_possibly_qt` (results) | Core, Arity |
| `_signal.py` | `_guess_qtsignal_signature`, `_ridiculously_call_emit`, `_get_signature_possibly_qt`, on what they ask of a callable | QtSlot |
| `_signal.py` | `__getstate__`, `__setstate__`, deepcopy | Pickle |
| `_signal.py` | the lock, `current_emitter`, queue and slots with several threads | Threads |
| `_signal.py` | `Signal.__get__`, `_cache_signal_instance` with object lifetimes and reuse of `id` | Descr |
| `_weak_callback.py` | `weak_callback`, `object_key`, all WeakCallback classes: `cb`, `dereference`, `__eq__`, `_try_ref`, finalizers, pickling of StrongFunction | Core, Pickle |
| `_queue.py` | `QueuedCallback`, `emit_queued` | Core; with threads interrupted anywhere: Drain |
| `_group.py` | `SignalRelay`: `_append_slot`, `_remove_slot`, `_connect_relay`, `_slot_relay`, connect_direct, block, unblock, disconnect | Core |
| `_group.py` | `SignalGroup.__init_subclass__`, `_is_uniform`, is_uniform, `__init__`, `__getitem__`, `__iter__`, `__len__`, `__contains__`, attribute access | Uniform, Evented, GroupMap |
| `_group_descriptor.py` | `_build_dataclass_signal_group`, `evented_setattr`, `_check_field_equality`, `_pick_equality_operator` (results), `SignalGroupDescriptor.__get__`, `_get_signal_group`, `_create_group` | Evented, Descr, Share |
| `_evented_model.py` | `EventedMetaclass.__new__`, `_get_field_dependents`, `_super_setattr_` | ModelClass |
| `_evented_model.py` | `update`, `reset`, `_defaults`, `_get_defaults` (pydantic 2), on trees of models, without events and validation | ModelTree |
| `_throttler.py`, `_weak_callback.py` | `throttled`, `debounced`, what keeps the wrappers alive | Wrapper |
| `_group_descriptor.py`, `_weak_callback.py` | `_DataclassFieldSignalInstance.connect_setattr`, `_changes_emitted`, `WeakSetattr.cb`, for fields bound to each other | Bind |
| `_evented_decorator.py`, `_group_descriptor.py` | `evented`, `SignalGroupDescriptor.__set_name__`, `is_evented`, `get_evented_namespace` | Decorator |
| `_evented_model.py` | `enums_as_values` (pydantic 1 and 2) | EnumConf |
| `_signal.py` | `Signal.__init__`, `__set_name__`, `_create_signal_instance`, `_build_signature`, `ReemissionMode.validate`, `SignalInstance.__init__` | Declare |
| `_group_descriptor.py` | `_do_patch_setattr`, `evented_setattr` in class hierarchies | Patch |
| `_evented_model.py` | `__eq__` | ModelEq |
| `_evented_list.py`, `_evented_dict.py` | the methods that do not change the container, with those inherited from `collections.abc` | EListRead |
| `_evented_model.py` | `__setattr__` with and without dependents, `update`, the delayed comparisons | EModel |
| `_throttler.py` | `_ThrottlerBase`, `Throttler`, `Debouncer` with `threading.Timer` | Throttle |
| `utils.py` | monitor_events, iter_signal_instances | Monitor |
| `utils.py` | decompile, recompile, over files with POSIX renaming | Files |
| `_exceptions.py` | `EmitLoopError.__init__`, `_build_psygnal_exception_msg`, `_fmt_frame`, `_fmt_locals`; the except clauses of emit, emit_fast, emit_queued | Report |
| `_group_descriptor.py` | `_get_eq_operator_map` and all who write to the tables | EqOps |
| `_signal.py`, `_weak_callback.py` | connect, disconnect and finalizers of WeakCallbacks that several signals share | Reuse |
| `_dataclass_utils.py` | iter_fields, with CPython's @dataclass as far as it makes `__dataclass_fields__` | Fields |
| `qt.py` | start_emitting_from_queue, stop_emitting_from_queue over QTimers that belong to the thread creating them (`Qt.v`); what Qt does with a timer used from another thread is left open |
| `containers/` | EventedList (all methods incl. MutableSequence mixins, move, move_multiple, child events), EventedDict, EventedSet, OrderedSet, EventedOrderedSet, Selection, SelectableEventedList, EventedObjectProxy, EventedCallableObjectProxy | EList, EChild, EDict, ESet, ESetRead, ESelect, SelList, EProxy; constructors: EMake |

Every definition cites the lines it models, and states what it simplifies.

An exception that the theorems on containers put down to listeners (`listener_raised`,
`Spec.v`) is one that an emission, or a resume whose reducer cannot fail, raises in some
state: EmitLoopError, RecursionError, a BaseException, or one raised by the debug hook
(`raised_kinds`, `Raised.v`).  A method's own IndexError, KeyError, ValueError or TypeError is
none of these unless a debug hook raises it.

## 3. Trusted base

* The Coq 8.16.1 kernel, including its virtual machine (`vm_compute` in examples and
  refutations).
* `Print Assumptions` says "Closed under the global context" for every theorem of
  `MANIFEST.json`: no axioms are used.  (Seven axioms named
  `Coq.ssr.ssrunder.Under_rel.*` are part of Coq's own library, which is loaded; no
  theorem depends on them.)
* The model's faithfulness to the code, by the file and line comments on each definition.
* The description of the environment:
  * Python builtins: `PyList.v`, `PyDict.v`, `PySet.v` (list, dict, set of CPython, with
    insertion into a list while it is iterated over as CPython does it), the mixin methods
    of `collections.abc`;
  * `weakref`: an object dies at one moment, its finalizers run then, dereferencing gives
    the object before and nothing after;
  * `threading.RLock`, `threading.Timer`, thread switches between any two steps listed in
    `Threads.v` and `Throttle.v`;
  * `wrapt.ObjectProxy`: passes operations on to the target (`EProxy.v`);
  * `inspect.signature` and pydantic validation: any function (`e_sig`; validators in
    `EModel.v`).

## 4. Not modelled

* message texts other than that of EmitLoopError, warnings, reprs, mypyc compilation, Qt itself,
  `_pyinstaller_util`, `_mypyc.py`, typing stubs;
* garbage collection other than "object o dies now" at an arbitrary point;
* CPython's own recursion limit and memory errors (the limit of 300 nested emissions is
  modelled; a real program may get RecursionError earlier);
* thread switches inside one step of the transition systems; the engine `Core.v` itself
  describes one thread at a time (callbacks queued for other threads are modelled);
* dataclass libraries: which fields a class has is a parameter of the evented classes
  (`Evented.v`); `Fields.v` computes them for dataclasses with one base each; is_frozen of
  `_dataclass_utils.py`;
* EventedModel: JSON encoding, the table of dependents in EModel.v (there it is a
  parameter, in ModelClass.v it is computed), pydantic itself (so also what it does with the entry
  that `enums_as_values` sets);
* `SignalGroup` item access and attribute lookup except where a theorem is about it;
  `SignalGroup.__deepcopy__` except as a step that makes a new group (`Descr.v`); pickling of
  relays;
* the two-argument loggers of monitor_events; subclasses of the containers that override
  hooks, except EventedList's child events and SelectableEventedList;
* iterators with side effects as arguments of container methods.

Further simplifications are stated in the comment at the head of each model file.

## 5. Properties and how they are proved

| id | subject | how |
|----|---------|-----|
| C01, C12-C14 | slots: order, connect, disconnect, identity | invariant over all runs incl. halted ones; list lemmas; C14 refuted |
| C02, C03, C05-C11, C22 | emission: delivery, exceptions, depth, modes, nesting, current emitter | induction over the live slot iteration, the queue, and fuel; C03, C10 refuted |
| C04, C30 | arguments passed, on_ref_error | induction over parameter lists against Python's binding rule; C30 refuted |
| C15-C20 | block, pause, resume | induction on programs; C17, C19, C20 refuted |
| C21, C27 | deaths of receivers, attribute and item setters | invariant; direct |
| C23-C26 | groups | invariant of links + delivery; C23 (emit_fast), C24-C26 refuted |
| C28, C59 | emit_fast | simulation between two runs; C28 refuted for groups and hooks (PropsFastGroup), C59 refuted |
| C29 | thread queues | invariant on the trace |
| C31 | pickling | round trip + delivery of the copy; refuted in part |
| C32 | monitor_events | restoration and reporting theorems; refuted in part |
| C33-C37 | EventedList | refinement of `PyList` written separately; C33, C36 refuted |
| C38, C39 | EventedDict | refinement of `PyDict`; C38 refuted |
| C40-C42 | sets | refinement of `PySet`, invariants over histories; C40, C41 refuted |
| C43, C44 | selections, also of lists | invariants over histories; refuted in part |
| C45, C46, C56, C61 | evented dataclasses, group classes | direct, induction over class statements; C45, C61 refuted |
| C47, C48 | EventedModel | C47 refuted for coerced values; invariant and events for dependents |
| C49-C51 | Throttler, Debouncer | invariants over all schedules; refuted in part |
| C52, C53, C62 | threads | invariants over all schedules, deadlock freedom by lock order; C53, C62 refuted |
| C54, C55, C63 | descriptors and caches | invariants with reuse of `id`; refuted in part |
| C57 | child events | invariant over histories; refuted in part |
| C58 | object proxies | direct; refuted in part |
| C64-C66 | checks of arguments and types | induction over parameter lists; C65, C66 refuted |
| C67-C69 | connect_direct, group.block | induction over members; C67, C69 refuted |
| C70, C71 | reading EventedSet and OrderedSet | direct, for all equivalences; refuted in part |
| C72, C73 | groups as mappings, subclasses of groups | invariants over class statements and accesses; refuted in part |
| C74-C76 | EventedModel classes | direct, induction over class statements; refuted in part |
| C77, C78 | reset(), update() of nested models | induction over depth and fields; refuted in part |
| C79–C81 | reading EventedLists and EventedDicts; ==, hash, copies | induction over contents, equality of keys any equivalence; refuted in part |
| C82 | == of EventedModels | direct, induction over fields; refuted across classes and after raising comparisons |
| C83 | which __setattr__ an evented class has | invariant over histories; refuted for overridden __setattr__ and two descriptors |
| C84 | emit_queued in several threads | invariant over schedules; refuted for two threads that empty one queue |
| C85, C86 | reports of callback errors | case analysis over the user code that runs meanwhile; string containment; both refuted |
| C87 | operators of fields | induction over histories; refuted for __eq_operators__ and after raising comparisons |
| C88 | WeakCallbacks as slots | invariant over histories (each slot has a finalizer left); refuted for other signals |
| C89 | fields of classes | spec by the nearest declaring class; induction over modules; refuted for classes of two libraries |
| C90 | names of model fields | case analysis over the names; wp calculus |
| C91 | announcements of selections | invariant over what was emitted; wp calculus with history |
| C92 | select_next | wp calculus for select_next, with active setter of C91 |
| C93 | remove_selected | loop invariant: what is still selected is what is still to be removed |
| C94 | Qt timers | invariant over histories: one timer per thread, as its last call says; ticks by C29's theorem |
| C95 | Qt signals as callbacks | induction over strings; refuted for types with commas and for the compiled psygnal |
| C96 | decompile, recompile | induction over the files found, in any order; refuted for stale backups |
| C97 | indices and slices | the builtin list's functions (`PyList`) against a separate description of positions (`SpecSlice`) |
| C98, C99, C100 | listeners that use their container | programs that call only its methods (`user`, SpecReentry), and what is true when an event is emitted (`true_d`, `true_s`); copies kept up to date by the events (`up_to_date`) |
| C101, C102 | EventedLists used by their own listeners | what one event tells about the list at the event before and at this one (`tells`, `chain`, SpecListUse), Python's list operations (PyList) |
| C103, C104 | Selections used by their own listeners | programs that call only its methods and catch nothing (`plain_user`, SpecSelUse), `right_active` and `replay` (SpecSelect) |
| C105, C106 | EventedModels whose listeners assign to them | programs that assign fields and properties, and catch nothing (`model_user`, `used_model`, SpecModelUse); what a listener remembers (`informed`) and what is announced (`current`) |
| C107 | SelectableEventedLists used by their own listeners | programs that call the methods of the list and of its selection and catch nothing (`list_user`, `used_list`, SpecSelListUse); `consistent` (SpecSelect) |
| C108 | constructors of the containers | `just_made` signals (SpecMake); evaluation of programs of an object nobody listens to (Alone), by induction on the program |
| C109 | enums_as_values | the uses that run, from the steps alone (`running`, SpecEnum); invariant: the configuration is that of the program without uses with the entry set, and each use has saved what the one below it set (EnumFacts) |
| C110 | declarations of signals | `reads`: the same letters in upper or lower case (SpecDeclare); binding rule of Core (`bind_ok`) |
| C111 | evented, is_evented | the name declared last, from the statements alone (`declared`, `nearest`, SpecDecorator); invariant on the attribute `_psygnal_group_` of each class |
| C112 | throttled callbacks | references, cycles and the garbage collector; a request is pending or served while the timer runs |
| C113 | fields bound to each other | the fields that differ from the new value become fewer with each emission |
| C114 | emitting under suppress(EmitLoopError) | refuted; what happens instead follows from C02 |
| C115 | Signal.sender | from C22; refuted for callbacks called by emit_queued |
| C60 | emissions end | measure (free recursion depth and waiting calls); refuted for callbacks that connect |

## 6. Findings

Behaviour of the code that contradicts a property (theorem) or was noticed while modelling
(no theorem named).

1. The slot list is iterated while it changes: a callback that disconnects itself makes the
   emission skip the next one, one that connects with higher priority is called twice
   (`C03_refuted_*`); one that connects itself makes emit() run for ever (`C60_refuted`).
2. Latest-only: a callback that emits twice, the first time with a nested emission, has its
   second value, the latest of all, delivered to nobody (`C10_refuted`).
3. resume() after a failed resume() delivers again (`C19_refuted`), delivers although the
   signal is blocked (`C20_refuted`), and runs for ever if a callback pauses the signal and
   emits it (`C60_resume_refuted`); likewise emit_queued(thread=t) in another thread with a
   callback that emits again (`C60_queue_refuted`).
4. Pausing a group does not hold back relayed emissions (`C25_refuted`).
5. Nested `group.blocked()` leaves the members blocked; an excluded member that was blocked
   is unblocked (`C17_refuted_*`).
6. `group.disconnect(f, missing_ok=False)` raises ValueError and keeps f when the members do
   not have f connected themselves; `member.disconnect()` cuts the group off (`C26_refuted`, `C24_refuted`).
7. Slot identity ignores the arguments of partials and compares methods by name
   (`C14_refuted_*`).
8. `on_ref_error` is ignored when the number of arguments is checked (`C30_refuted`).
9. emit_fast: groups are not told (`C23_fast_refuted`, `C28_group_refuted`), nor is the debug hook (`C28_hook_refuted`); emit() inside it leaves the state
   such that the next latest-only emit() calls nobody (`C59_refuted`); no debug hook
   (`C32_fast_refuted`).
10. Unpickled callbacks have no priority attribute: connecting a priority raises
    (`C31_priority_refuted`); in another process they cannot be disconnected
    (`C31_disconnect_refuted`); a queued signal copied by its own callback never emits again
    (`C31_inside_refuted`).
11. monitor_events leaves report functions connected when it fails half-way, reports twice
    for two names (`C32_*_refuted`).
12. EventedList: `del l[-4]` on three items deletes the last (`C33_refuted`); pop returns a
    wrapper for list items (`C33_pop_refuted`); negative move source (`C35_negative_refuted`);
    move_multiple with mixed sources (`C36_refuted`, `C36_raises_refuted`); `removing` before IndexError
    (`C34_announced_refuted`).  copy() and slices lose `child_events` and `hashable`
    (`C80_settings_refuted`); equal lists have different hashes (`C80_hash_refuted`); items that are lists
    are wrapped when read, so copy() and + hold new objects (`C79_nested_refuted`).
13. child_events: assigned items are not connected, replaced ones stay (`C57_setitem_refuted`),
    wrong positions (`C57_index_refuted`), items whose groups have no instance
    (`C57_instance_refuted`), items whose insertion a listener answered with an exception
    (`C57_raise_refuted`).
14. EventedDict.popitem() takes the first item (`C38_refuted`); `adding` is emitted before
    the type check (`C39_announced_refuted`).
15. EventedSet: symmetric_difference_update with repeated elements (`C40_refuted`,
    `C41_toggled_refuted`), difference_update(self) (`C40_itself_refuted`),
    intersection_update() (`C40_no_argument_refuted`), `|=` emits per item (`C41_refuted`).
16. Selection.active stays at a refused item (`C43_refuted`), or stale after a raising
    listener (`C43_listener_refuted`); replaced items stay selected (`C44_refuted`).
17. SignalGroupDescriptor: all descriptors share `_instance_map` (`C55_refuted`); objects that
    cannot be weakly referenced are kept for ever (`C63_refuted`); aliases leak into a shared
    group class (`C61_refuted`, `C61_collect_refuted`); `Signal(name=...)` with another name
    than the attribute gives a new instance at every access (`C54_name_refuted`); copy.copy shares it (`C54_copy_refuted`); signal_aliases given as a
    Mapping other than dict is ignored with collect_fields=False.
18. Evented dataclasses: one raising comparison replaces the operator for good
    (`C45_sticky_refuted`); subclasses of a fieldless class
    with an alias function never emit (`C45_subclass_refuted`).  `_EQ_OPERATORS` keeps classes alive.
19. EventedModel emits the raw value, not the validated one (`C47_refuted`); a raising getter
    breaks all later assignments (`C48_refuted`).
20. Throttler: requests lost while a timer thread ends (`C50_*_refuted`), calls too close when
    the function raises, two threads call or it calls itself (`C49_refuted`,
    `C49_threads_refuted`, `C49_reentrant_refuted`), a request during firing (`C51_refuted`).
21. Threads: current_emitter is global (`C53_refuted`, `C53_stale_refuted`); two threads emitting from each
    other's callbacks deadlock (`C62_refuted`); deaths, emit_fast and deep recursion in other
    threads disturb emissions (`C52_*_refuted`).
22. Object proxies: setting an item with a new key raises KeyError (`C58_new_key_refuted`),
    failed or ineffective operations are announced (`C58_*_refuted`).
23. emit(check_types=True) refuses every value of a parameter without annotation
    (`C65_refuted_unannotated`); connect(check_types=True) compares types in the wrong
    direction (`C66_refuted_unsound`, `C66_refuted_incomplete`).
24. connect_direct that raises leaves earlier signals connected (`C67_refuted_atomic`); a
    blocked group is told about exempted signals (`C69_refuted`).
25. Sets: symmetric_difference(iterator) is wrong, intersection() raises
    (`C70_iterator_refuted`, `C70_no_argument_refuted`); symmetric_difference and ^, & and
    intersection differ in order (`C71_*_refuted`).
26. Groups: Signal(name=...) in a group makes group.x differ from group["x"], so that its
    emissions do not reach the group (`C72_name_refuted`, `C72_other_refuted`,
    `C72_two_names_refuted`); subclassing a group with a signal psygnal_x raises
    (`C73_refuted`).
27. EventedModel subclasses: inherited property setters have no signal (`C74_refuted`), so
    that every assignment to a field they depend on raises KeyError
    (`C75_inherited_refuted`, `C75_frozen_refuted`); a property made read-only is still set by
    the inherited setter (`C76_readonly_refuted`); with several bases the setter is not the one of
    the __mro__ (`C76_diamond_refuted`).
28. EventedModel.reset() sets fields with a default_factory to None and required ones to
    PydanticUndefined, and gives nested models the defaults of their class (`C77_refuted`);
    update(recurse=False) with a model and models in lists leave dicts, and update() is not
    atomic (`C78_refuted`).
29. EventedModel ==: not symmetric and not transitive for unrelated classes with common fields
    (`C82_unrelated_refuted`), changed by a comparison that raised (`C82_sticky_refuted`).
30. A subclass of an evented class that defines __setattr__ with super() emits twice
    (`C83_twice_refuted`, `C83_implicit_refuted`); with several bases, the __setattr__ put into
    one class does not call that of the next, which may refuse assignments
    (`C83_bypass_refuted`); of two descriptors on a class only the one read first works
    (`C83_two_refuted`).
31. Two threads in emit_queued for the same thread: one can wait for ever in queue.get()
    (`C84_waits_refuted`).
32. The report of a callback's error can itself fail: str(exc), bool(signal.instance) and
    repr(args) run unprotected, and their exception replaces the EmitLoopError
    (`C85_refuted`).  The frames of psygnal are recognised by `ROOT in filename`, which is also
    true of a package like psygnal_tools next to it (`C86_emitted_refuted`).
33. Operators in a class's __eq_operators__ are overwritten by defaults when its group is
    built, and a derived class writes its operators into the dict of the base
    (`C87_declared_refuted`, `C87_inherited_refuted`).
34. A WeakCallback connected to a second signal keeps the finalizer, priority and max_args of
    the first: emissions of the second raise ReferenceError once the object is gone
    (`C88_foreign_refuted`).
35. A class of two libraries gets signals for the fields of one of them only, and the types of
    inherited msgspec fields are lost (`C89_mixed_refuted`, `C89_inherited_refuted`).  By
    reading only: frozen dataclasses and attrs fields are not excluded by exclude_frozen, and
    `evented` does not raise the TypeError for frozen classes that it documents.
36. EventedModel announces a change with getattr(self._events, name)(value): for a field called
    like an attribute of SignalGroup this calls that attribute instead of the signal
    (`C90_instead_refuted`); a field called disconnect set to None disconnects the listeners of
    the group (`C90_disconnect_refuted`).
37. A Selection updates active after each item of a bulk operation: selecting two items emits
    events.active for the first and then None, and leaves the first one current
    (`C91_update_refuted`); `active = x` emits None and then x twice (`C91_active_refuted`).
38. Removing the current item of a selection from the list while others stay selected leaves
    `_current` pointing to an item that is not in the list; select_next and select_previous then
    raise ValueError (`C92_refuted`).
39. remove_selected() with nothing selected selects the first item (`C93_refuted`).
40. start_emitting_from_queue(thread=t) called in another thread creates the timer in the calling thread, which therefore makes the
    calling thread's calls, not t's; t's own later start_emitting_from_queue() only changes that timer, so that the calls waiting for t
    are never made (`C94_foreign_refuted`).
41. Connecting `other.emit` of the compiled psygnal emits `other` with 255 ones: its emit is a
    builtin method called "SignalInstance.emit", as PySide's (`C95_compiled_refuted`; the test
    of this use connects the callback that would notice afterwards).  A Qt signal with an
    argument of a type like QMap<QString,int> counts as one of two arguments
    (`C95_comma_refuted`).
42. recompile() replaces a newer compiled file by a backup left from an older build
    (`C96_refuted`).
43. Listeners of adding, changing or removing may change the same entry of an EventedDict: added then comes twice, changed and
    removed carry a value that is no longer right (`C100_again_refuted`, `C100_stale_refuted`), del raises KeyError although the entry was there, and
    clear() takes that KeyError for the end and leaves the other entries (`C100_clear_refuted`).
44. Listeners of removing may shift the items of an EventedList: pop() then returns an item that stays in the list and removes another one
    (`C102_pop_refuted`), and clear() takes the IndexError for the end and leaves items (`C102_clear_refuted`).
45. A listener of active (or items_changed) that makes another item active: the outer setter then still emits active with, and makes current, the
    item made active first (`C104_told_refuted`); active itself is right (`C103_active`).
46. A model with dependent properties reads all values to announce before it announces the first: after a listener assigned to another of these
    attributes, its old value is still announced, and the new one only after that (`C106_stale_refuted`); the last value announced is right (`C105_told`).
47. Overlapping uses of `enums_as_values` of one model class that are not nested (two generators, threads or asyncio tasks) leave
    the setting of the first one in `model_config` for good (`C109_overlap_refuted`). With pydantic 1 all models without a `Config`
    of their own share the setting, as it is stored in `EventedModel.Config` (`C109_shared_refuted`), and a use of a class whose
    `Config` inherits from that of another class, inside a use of that class, keeps the outer setting (`C109_inherited_refuted`).
48. `Signal(reemission=...)` does not check its argument; a wrong mode raises ValueError at every access to the signal of an object
    (`C110_late_refuted`).
49. `evented`: the docstring says that frozen classes raise TypeError, which they do not (`C111_frozen_refuted`); names starting with
    `_psygnal` are noticed only among the annotations of the class itself (`C111_inherited_refuted`); an attribute of a derived class
    hides the group, but `get_evented_namespace` still names it (`C111_hidden_refuted`).
50. `emitter.changed.connect(throttled(on_change, timeout=50))`, the example in the documentation of `throttled` (and likewise
    `debounced`), never calls `on_change`: a signal refers to a callable object weakly, and nothing else refers to the wrapper
    (`C112_lost`, `C112_refuted`).  `_throttler.py` is excluded from compilation, so this is so in all builds.
51. Two fields bound to each other by `connect_setattr`: assigning nan recurses until a limit raises (`C113_nan_refuted`); with different
    equality operators they can come to differ (`C113_operators_refuted`).
52. `with suppress(EmitLoopError): emit(...)`, given in docs/usage.md as the way to make sure that all other callbacks are still called,
    does not do so: the callbacks after the first that raises are not called (`C114_refuted`).
53. `Signal.sender()` and `Signal.current_emitter()` in a callback connected with `thread=`: None, or the sender of some other
    emission that is running when emit_queued is called (`C115_thread_refuted`).
54. Not covered by a theorem: exceptions of the debug hook leave emit() unwrapped; a hook that
    emits recurses.
