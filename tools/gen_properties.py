"""Writes /verif/properties.jsonl (source of the property list)."""
import json, os
S = "src/psygnal/_signal.py"
W = "src/psygnal/_weak_callback.py"
G = "src/psygnal/_group.py"
GD = "src/psygnal/_group_descriptor.py"
Q = "src/psygnal/_queue.py"
T = "src/psygnal/_throttler.py"
M = "src/psygnal/_evented_model.py"
U = "src/psygnal/utils.py"
DU = "src/psygnal/_dataclass_utils.py"
EL = "src/psygnal/containers/_evented_list.py"
ED = "src/psygnal/containers/_evented_dict.py"
ES = "src/psygnal/containers/_evented_set.py"
SE = "src/psygnal/containers/_selection.py"
SL = "src/psygnal/containers/_selectable_evented_list.py"
PX = "src/psygnal/containers/_evented_proxy.py"
DE = "src/psygnal/_evented_decorator.py"
QT = "src/psygnal/qt.py"
P = []
def p(title, statement, quantifier, why, *anchors):
    P.append(dict(id="C%02d" % (len(P) + 1), title=title, statement=statement,
                  quantifier=quantifier, why_tests_cant=why, anchors=list(anchors)))

# ---- signals -----------------------------------------------------------------
p("Callback order is priority order, then connection order",
  "At every moment, the callbacks of a signal are ordered by descending `priority`, and callbacks of equal priority are in the order in which they were connected, whatever connects, disconnects and deaths of receivers happened before, including ones performed by callbacks during an emission.",
  "every finite history of API calls, with arbitrary re-entrant callbacks, observed at any point inside or between callbacks",
  "the order is the result of the whole interleaving of connects, disconnects and receiver deaths; a test sees a few histories",
  f"{S}:SignalInstance._append_slot", f"{S}:SignalInstance.connect", f"{S}:SignalInstance._remove_slot")
p("An emission calls every connected callback exactly once, in order",
  "If no callback connects or disconnects anything on the emitting signal, one `emit(*args)` in immediate mode calls each connected callback exactly once, in slot order, each with the emitted arguments cut to that callback's `max_args`; if a callback raises, exactly the callbacks up to and including the raising one were called.",
  "every slot list, argument tuple, state of the rest of the program and callback behaviour that leaves the slots of this signal alone",
  "callbacks are arbitrary code which may emit other signals, nest emissions of the same signal, raise, block, pause",
  f"{S}:SignalInstance._run_emit_loop_immediate", f"{S}:SignalInstance._run_emit_loop", f"{W}:WeakCallback.cb")
p("Changing connections during an emission never makes another callback lost or doubled",
  "When a callback disconnects itself (or another callback), or connects a new one, while the signal is being emitted, every other callback that was connected before the emission and still is afterwards is called exactly once by that emission.",
  "every slot list and every callback behaviour",
  "depends on which position is being visited when the list is changed; tests try one or two positions",
  f"{S}:SignalInstance._run_emit_loop_immediate", f"{S}:SignalInstance.disconnect")
p("connect() accepts a callback exactly when it can be called, and never passes it too many or too few arguments",
  "With check_nargs on, connect accepts a callback exactly when it has no required keyword-only parameter and requires no more positional arguments than the signal declares; every later emission with the declared number of arguments (or more) calls the callback with a number of arguments its signature accepts.",
  "every parameter list (positional-only, positional-or-keyword, *args, keyword-only, **kwargs, defaults), every signal arity and every number of emitted arguments at least the declared one",
  "the space of signatures is infinite",
  f"{S}:_acceptable_posarg_range", f"{S}:SignalInstance._check_nargs", f"{W}:WeakCallback.cb")
p("A callback's exception surfaces as one EmitLoopError carrying the original error",
  "If a callback raises an Exception e that is neither RecursionError nor EmitLoopError, the emit call raises EmitLoopError whose cause is e; an EmitLoopError coming from a nested emission passes through unchanged, a RecursionError surfaces as RecursionError, and a BaseException that is not an Exception passes unchanged. emit never lets a raw callback Exception escape.",
  "every signal, callback behaviour, nesting depth and exception",
  "needs every combination of nesting and exception class",
  f"{S}:SignalInstance._run_emit_loop", "src/psygnal/_exceptions.py:EmitLoopError")
p("A signal is always usable again after an emission, however it ended",
  "After an outermost emit/emit_fast/resume call returns or raises, no emission of any signal is marked as in progress: the recursion depth is what it was before, nothing is left in the re-emission queue, and Signal.current_emitter() is what it was before.",
  "every program state, signal, arguments, callback behaviour (including exceptions of any kind thrown and caught at any depth)",
  "the clean-up has to be right on every exit path through every nesting of emissions of every signal",
  f"{S}:SignalInstance._run_emit_loop", f"{S}:Signal._emitting", f"{S}:SignalInstance.emit_fast")
p("Recursion is bounded by RECURSION_LIMIT",
  "At no moment are more than 300 emissions of the same signal nested; attempting one more raises RecursionError without calling any callback and without changing the signal.",
  "every reachable state and callback behaviour",
  "requires an invariant over all nested executions",
  f"{S}:RECURSION_LIMIT", f"{S}:SignalInstance._run_emit_loop", f"{S}:SignalInstance.emit_fast")
p("'queued' re-emission is breadth first and first-in first-out",
  "With reemission='queued', values emitted by callbacks during an emission are delivered after the current value has been delivered to all callbacks, in the order in which they were emitted, each to all callbacks; and one emission never delivers more than 300 values before RecursionError.",
  "every slot list, argument and callback behaviour that leaves the slots of this signal alone",
  "the set of re-emission patterns is unbounded",
  f"{S}:SignalInstance._run_emit_loop_queued", f"{S}:SignalInstance._run_emit_loop")
p("'latest-only' re-emission abandons the older value",
  "With reemission='latest-only', the callbacks called with the original value are exactly those up to the first one during which the signal was emitted again: the remaining callbacks at that level are never called with the older value.",
  "every slot list, argument and callback behaviour that leaves the slots of this signal alone",
  "the set of re-emission patterns is unbounded",
  f"{S}:SignalInstance._run_emit_loop_latest_only")
p("'latest-only' never drops the latest value",
  "With reemission='latest-only', a value emitted by a callback during an emission is delivered to all callbacks unless a newer emission supersedes it.",
  "every slot list and every callback behaviour",
  "only particular nesting patterns (a deeper emission followed by a shallower one) expose a violation",
  f"{S}:SignalInstance._run_emit_loop_latest_only", f"{S}:SignalInstance._run_emit_loop")
p("'immediate' re-emission is depth first",
  "With reemission='immediate', a nested emission starts and finishes between the start and the end of the callback that performed it, and the outer emission then goes on with the original value for all remaining callbacks: call and return events are always properly nested.",
  "every callback behaviour and nesting",
  "proper nesting must hold of all executions",
  f"{S}:SignalInstance._run_emit_loop_immediate")
p("disconnect undoes connect; len and `in` agree with the connections",
  "connect adds exactly one connection; disconnect(slot) removes exactly the first connection of that slot and leaves all others in place and order; disconnect() removes all; `slot in sig` is true iff a connection with that slot exists; disconnecting a slot which is not connected changes nothing and raises ValueError iff missing_ok is False. connect immediately followed by disconnect of a slot that was not connected restores the previous connections.",
  "every slot list, callable and option set",
  "must hold for all slot lists including duplicates and priorities",
  f"{S}:SignalInstance.disconnect", f"{S}:SignalInstance._slot_index", f"{S}:SignalInstance.__contains__")
p("unique=True never creates a duplicate connection",
  "If every connect on a signal uses unique=True or unique='raise', no slot is ever connected twice; connecting a connected slot changes nothing, and raises ValueError exactly with 'raise'.",
  "every history of API calls using unique connects",
  "an invariant over all histories",
  f"{S}:SignalInstance.connect")
p("Slot identity: two callables are the same slot only if they are the same callable",
  "disconnect(slot), `slot in sig` and unique=True treat two callables as the same slot only if they are the same function, or the same method of the same object, or partials of it with the same bound arguments.",
  "all pairs of callables",
  "identity is decided by a computed key; tests compare a handful of pairs",
  f"{W}:WeakCallback.object_key", f"{W}:WeakCallback.__eq__", f"{W}:weak_callback")
p("A blocked signal does nothing when emitted",
  "While a signal is blocked, emit and emit_fast call no callback, queue nothing, raise nothing and leave all state unchanged, whatever arguments and checks are requested.",
  "every state, arguments and flags",
  "must hold in every state, e.g. paused, mid-emission, with an installed debug hook",
  f"{S}:SignalInstance.emit", f"{S}:SignalInstance.emit_fast", f"{S}:SignalInstance.block")
p("`with signal.blocked():` restores the blocked state",
  "After a `with signal.blocked():` statement the signal is blocked iff it was blocked before, whether the body returned or raised and however such statements are nested, provided the body itself only changes the flag through further `blocked()` statements; inside the body the signal is blocked.",
  "every body, nesting and exception",
  "arbitrary nesting and exceptional exits",
  f"{S}:_SignalBlocker", f"{S}:SignalInstance.blocked")
p("`with group.blocked():` restores every member signal",
  "After a `with group.blocked(exclude):` statement every signal of the group is blocked iff it was blocked before, also when such statements are nested or some signals are excluded or individually blocked.",
  "every initial blocked state, exclude set and nesting",
  "all combinations of previously blocked, excluded, nested",
  f"{G}:SignalRelay.block", f"{G}:SignalRelay.unblock", f"{S}:_SignalBlocker")
p("pause/resume delivers every paused emission once, in order",
  "While paused, emit calls nothing; resume() without reducer then emits all collected argument tuples once each, in emission order, and empties the collection; with a reducer it emits exactly one tuple, the reduction of all collected tuples; with no emission in between it emits nothing; with no callbacks connected it discards the collection.",
  "every list of collected emissions, reducer, slot list, and callbacks that do not raise or touch this signal",
  "unbounded sequences of emissions and arbitrary reducers",
  f"{S}:SignalInstance.resume", f"{S}:SignalInstance.pause", f"{S}:_SignalPauser")
p("A paused emission is delivered at most once even if a callback raises",
  "An emission collected while a signal was paused is never delivered to the same callback twice, even if a callback raises while the signal is being resumed.",
  "every list of collected emissions and callback behaviour",
  "needs failures at every position of the replay",
  f"{S}:SignalInstance.resume")
p("A blocked signal stays silent when resumed",
  "While a signal is blocked no callback of it is called, also when resume() is called.",
  "every state with the signal blocked",
  "combination of block and pause at arbitrary times",
  f"{S}:SignalInstance.resume", f"{S}:SignalInstance.block")
p("Dead receivers are disconnected and never called",
  "When an object which is only weakly referenced by its connections dies, all connections of its methods, attribute and item setters disappear from every signal at once, no other connection is touched, and no callback on it is ever called afterwards by an emission.",
  "every history, with receivers dying at any point, including inside callbacks",
  "the moment of death is arbitrary",
  f"{W}:_kill_and_finalize", f"{W}:WeakMethod", f"{S}:SignalInstance._try_discard")
p("current_emitter is the emitting signal inside callbacks",
  "Inside a callback called by emit, Signal.current_emitter() is the signal that called it, also after nested emissions of other signals returned or raised; outside all emissions it is None.",
  "every nesting of emissions and exceptions (single thread)",
  "must hold for all nestings",
  f"{S}:Signal._emitting", f"{S}:Signal.current_emitter")
p("A group listener is told exactly once about each member emission",
  "A callback connected to a SignalGroup is called once for each emission of a member signal, with EmissionInfo(member, args), as long as the group has been left to manage its own connections to its members.",
  "every group, history of connects and disconnects on the group and member signals that does not wipe a member's connections, every emission",
  "depends on the full history of group and member connections",
  f"{G}:SignalRelay._slot_relay", f"{G}:SignalRelay._append_slot", f"{G}:SignalRelay._remove_slot")
p("Disconnecting a member's own callbacks does not cut off the group",
  "After `group.member.disconnect()` the callbacks connected to the group still hear about emissions of that member.",
  "every group with connected group callbacks",
  "an interaction between two API calls on different objects that tests do not combine",
  f"{G}:SignalRelay._connect_relay", f"{S}:SignalInstance.disconnect")
p("Pausing a group defers its notifications",
  "While a group is paused, group callbacks are not called when a member emits; they are called on resume.",
  "every group and member emission",
  "tests only check that the methods exist on the group",
  f"{G}:SignalRelay._slot_relay", f"{G}:SignalGroup.pause")
p("group.disconnect(slot, missing_ok=False) disconnects a connected slot",
  "If slot is connected to the group, group.disconnect(slot, missing_ok=False) disconnects it and raises nothing.",
  "every group with at least one member and every connected slot",
  "depends on the combination of member and group connections",
  f"{G}:SignalRelay.disconnect")
p("connect_setattr / connect_setitem bind the emitted value",
  "After connect_setattr(obj, name, maxargs) each emission sets obj.name to the single emitted value, or to the tuple of emitted values (after cutting to maxargs) if there is not exactly one; disconnect_setattr removes exactly that binding. Same for items.",
  "every argument tuple, maxargs, slot list",
  "all argument counts and maxargs combinations",
  f"{W}:WeakSetattr", f"{W}:WeakSetitem", f"{S}:SignalInstance.connect_setattr", f"{S}:SignalInstance.disconnect_setattr")
p("emit_fast calls the same callbacks with the same arguments as emit",
  "For a signal in immediate mode, emit_fast(*args) performs the same callback calls as emit(*args) when callbacks do not ask for the current emitter, and honours block and pause in the same way.",
  "every state, arguments",
  "an equivalence over all states and callback behaviours",
  f"{S}:SignalInstance.emit_fast", f"{S}:SignalInstance.emit")
p("Queued calls of thread-bound callbacks are made first in first out, exactly once",
  "A callback connected with thread=t is run at once when the signal is emitted in t; otherwise it is queued and run, with the emitted arguments, exactly once and in emission order by emit_queued for t; if one raises, emit_queued raises EmitLoopError and all later ones stay queued for the next call.",
  "every interleaving of emissions from any threads and emit_queued calls",
  "schedules are unbounded",
  f"{Q}:QueuedCallback.cb", f"{Q}:emit_queued")
p("on_ref_error='raise' raises when no weak reference can be made",
  "connect(slot, on_ref_error='raise') raises if the receiver of slot cannot be weakly referenced.",
  "every non weakly-referenceable receiver and connect options",
  "tests use the weak_callback constructor rather than connect with default options",
  f"{S}:SignalInstance._check_nargs", f"{W}:WeakCallback._try_ref")
p("Pickling a signal keeps its function connections and settings",
  "After pickling and unpickling a signal (outside emissions), it has the same function callbacks in the same order and with the same priorities, the same blocked/paused flags, collected emissions, reemission mode and checks; it can be connected to and emitted as before.",
  "every signal state outside emissions",
  "all combinations of slots and flags",
  f"{S}:SignalInstance.__getstate__", f"{S}:SignalInstance.__setstate__", f"{W}:StrongFunction.__getstate__")
p("monitor_events leaves no trace",
  "After `with monitor_events(obj)` the connections of every monitored signal, and the global debug hook for obj=None, are what they were before, whether the body returned or raised, if the body did not change them itself; during the body each emission of a monitored signal is reported exactly once.",
  "every set of signals and body",
  "arbitrary bodies",
  f"{U}:monitor_events")
# ---- containers --------------------------------------------------------------
p("EventedList behaves like list",
  "Every mutation of an EventedList (insert, append, extend, item and slice assignment and deletion, pop, remove, clear, reverse, +=) leaves it with the contents a builtin list would have after the same operation, and raises the same exception class when the builtin list would raise.",
  "every list, every operation, every index (positive, negative, out of range) and slice, every sequence of operations",
  "indices, slices and their combinations are unbounded",
  f"{EL}:EventedList.__setitem__", f"{EL}:EventedList.__delitem__", f"{EL}:EventedList.insert")
p("EventedList events describe the change exactly",
  "Each mutation announces itself before and after: `inserting/removing/moving` are emitted while the list still has its old contents, `inserted/removed/moved/changed/reordered` when it has the new contents, and applying the announced changes to a copy of the old list gives the new list.",
  "every list and every history of operations, with listeners that do not modify the list",
  "requires replaying arbitrary histories",
  f"{EL}:EventedList.insert", f"{EL}:EventedList.__delitem__", f"{EL}:EventedList.__setitem__")
p("EventedList.move moves one item in pre-move coordinates",
  "move(src, dest) with 0 <= src < len and 0 <= dest <= len puts the item before the item that was at position dest, keeps all other items in order, and reports False without events when nothing changes.",
  "every list and every pair of indices",
  "all pairs of indices for all lengths",
  f"{EL}:EventedList.move")
p("EventedList.move_multiple gathers the sources in front of the destination",
  "move_multiple(sources, dest) moves the items at the given distinct positions, in the given order, so that they stand together in front of the item that was at position dest (pre-move coordinates), and keeps all other items in order.",
  "every list, list of distinct source indices and destination",
  "the index arithmetic has to be right for all lengths and combinations",
  f"{EL}:EventedList.move_multiple", f"{EL}:EventedList._move_plan")
p("move_multiple never loses or duplicates items",
  "move_multiple leaves the list with the same items, each the same number of times.",
  "every list, list of sources and destination for which it returns",
  "all combinations",
  f"{EL}:EventedList.move_multiple")
p("EventedDict behaves like dict",
  "Every mutation of an EventedDict leaves it with the contents (and item order) a builtin dict would have after the same operation.",
  "every dict and operation (setitem, delitem, pop, popitem, clear, update, setdefault)",
  "all operation sequences",
  f"{ED}:EventedDict.__setitem__", f"{ED}:TypedMutableMapping")
p("EventedDict events describe the change exactly",
  "Setting a new key emits adding before and added after; changing a key to a different object emits changing before and changed(key, old, new) after; assigning the same object emits nothing; deleting emits removing before and removed(key, value) after; replaying the events on a copy of the old dict gives the new dict.",
  "every dict and history of operations with listeners that do not modify it",
  "arbitrary histories",
  f"{ED}:EventedDict.__setitem__", f"{ED}:EventedDict.__delitem__")
p("EventedSet behaves like set",
  "Every operation of an EventedSet (add, discard, remove, pop, clear, update, and the four in-place set operations) leaves it with the contents a builtin set would have.",
  "every set, operation and iterable argument (also iterables with repeated elements)",
  "arguments are arbitrary iterables",
  f"{ES}:_BaseMutableSet", f"{ES}:EventedSet")
p("EventedSet bulk changes are announced once, with the exact difference",
  "Each mutating call emits items_changed at most once, with (added, removed) where added are exactly the elements that are new and removed exactly those that are gone, without repetition; no emission when nothing changed.",
  "every set, operation and argument",
  "all contents and arguments",
  f"{ES}:EventedSet", f"{ES}:_reduce_events")
p("EventedOrderedSet keeps insertion order",
  "An OrderedSet iterates over its elements in order of first insertion since they were last absent.",
  "every history of operations",
  "arbitrary histories",
  f"{ES}:OrderedSet")
p("Selection.active is the only selected item",
  "At rest, selection.active is the selected item if exactly one item is selected and None otherwise, after any history of operations including failed ones.",
  "every history of operations, parent container and arguments",
  "the active setter and the change notification call each other recursively",
  f"{SE}:Selection.active", f"{SE}:Selection._update_active", f"{SE}:Selection._emit_change")
p("The selection of a SelectableEventedList contains only items of the list",
  "selection is a subset of the list after any history of list and selection operations.",
  "every history of operations",
  "arbitrary histories",
  f"{SL}:SelectableEventedList", f"{SE}:Selection")
# ---- dataclass / model -------------------------------------------------------
p("Evented dataclasses announce exactly the real changes",
  "Assigning a field of an evented dataclass emits that field's signal with (new, old) iff the value after assignment differs (by the field's equality) from the value before, also when the assignment raises after changing the value; assigning a field that has no signal emits nothing.",
  "every class configuration, field, value and equality function (including raising ones)",
  "all values and equality operators",
  f"{GD}:evented_setattr", f"{GD}:_changes_emitted", f"{GD}:_check_field_equality")
p("Signal aliases: one signal per field, named as requested",
  "The signal group built for a dataclass has exactly one signal for every field that is not aliased to None, under its alias if given and under the field name otherwise, and no others than those and the predefined ones.",
  "every field list, base group and alias map or function",
  "all combinations of names and aliases",
  f"{GD}:_build_dataclass_signal_group", f"{GD}:get_signal_from_field")
p("EventedModel announces exactly the real changes with the new value",
  "Assigning a field of an EventedModel emits its signal with the field's new value iff that new value differs from the old one.",
  "every model class, value and validator",
  "all values and validators",
  f"{M}:EventedModel._setattr_no_dependants", f"{M}:EventedModel._setattr_impl")
p("EventedModel emits all field and dependent events after all changes are done, once each",
  "When a field with dependents is assigned (also through a property setter that assigns several fields), signals of the changed fields and of the dependent properties whose value changed are emitted only after all assignments are finished, each at most once with the final value; the bookkeeping is empty afterwards, whatever listeners do or raise.",
  "every dependency graph, property setter, listener behaviour",
  "re-entrant setters and listeners",
  f"{M}:EventedModel._setattr_impl", f"{M}:EventedModel._check_if_values_changed_and_emit_if_needed", f"{M}:ComparisonDelayer")
# ---- throttling --------------------------------------------------------------
p("A throttled function runs at most once per interval",
  "Two consecutive calls of the wrapped function by a Throttler (not caused by flush, and without cancel) are at least the interval apart.",
  "every timed sequence of calls and timer firings",
  "all timings",
  f"{T}:Throttler", f"{T}:_ThrottlerBase._actually_call")
p("A throttled or debounced function always sees the last arguments",
  "If calls stop, the last call of the wrapped function happens at or after the last request and has its arguments, unless cancelled; no request is left pending once the timer is idle.",
  "every timed sequence of calls and every thread schedule",
  "all timings and schedules",
  f"{T}:Throttler.__call__", f"{T}:_ThrottlerBase._call_if_has_pending")
p("A debounced function waits for silence",
  "A trailing Debouncer calls the wrapped function only when no request was made during the last interval, once per burst.",
  "every timed sequence of calls",
  "all timings",
  f"{T}:Debouncer")
# ---- threads -----------------------------------------------------------------
p("Emissions of one signal from several threads are serialised",
  "Callbacks of two emit calls on the same signal made in different threads never interleave, and connections do not change under a running emission of another thread through connect/disconnect.",
  "every number of threads and every schedule",
  "schedules are unbounded",
  f"{S}:SignalInstance._run_emit_loop", f"{S}:SignalInstance.connect")
p("current_emitter is correct with several threads",
  "Signal.current_emitter() inside a callback is the signal that called it, and None when no emission is running, also when several threads emit different signals.",
  "every schedule",
  "needs a particular interleaving of two threads",
  f"{S}:Signal._emitting")
# ---- descriptors -------------------------------------------------------------
p("Each object has its own signal instance",
  "Accessing a Signal attribute twice on the same live object gives the same SignalInstance, and accesses on different live objects give different ones.",
  "every history of object creation, access and destruction, with object ids being reused",
  "id reuse depends on the allocator",
  f"{S}:Signal.__get__", f"{S}:Signal._cache_signal_instance")
p("Each signal group descriptor gives its own group",
  "Two SignalGroupDescriptors on one class give different groups, each with its own signals.",
  "every class with several descriptors and every access order",
  "tests use one descriptor per class",
  f"{GD}:SignalGroupDescriptor.__get__", f"{GD}:SignalGroupDescriptor._instance_map")
p("A group is uniform iff all its signals have the same signature",
  "psygnals_uniform() is true iff all signals of the group have the same parameter annotations, and strict groups are rejected iff it is false.",
  "every list of signals",
  "all lists",
  f"{G}:_is_uniform", f"{G}:SignalGroup.__init_subclass__")
p("child_events reports events of exactly the items in the list",
  "In an EventedList with child_events=True, an event emitted by an item is re-emitted by the list iff the item is currently in the list.",
  "every history of list operations",
  "arbitrary histories including replacement of items",
  f"{EL}:EventedList._connect_child_emitters", f"{EL}:EventedList._disconnect_child_emitters")
p("An evented proxy changes its target like direct access, and announces real changes",
  "Setting, deleting attributes and items through an EventedObjectProxy has the same effect on the target as doing it directly, and emits attribute_set/item_set iff the stored object changed.",
  "every target, key, value",
  "all keys and values, including keys that do not exist yet",
  f"{PX}:EventedObjectProxy.__setitem__", f"{PX}:EventedObjectProxy.__setattr__")
p("An emission of a latest-only signal that is not being emitted reaches all callbacks",
  "With reemission='latest-only', emit() called while no emission of the signal is running calls every callback, in order, unless a callback raises or emits the signal again.",
  "every history of the signal before that, including emissions with emit and emit_fast in any nesting",
  "the state left behind by an earlier nested emission matters only for the next one",
  f"{S}:SignalInstance._run_emit_loop_latest_only", f"{S}:SignalInstance.emit_fast")
p("An emission ends",
  "emit() returns or raises after finitely many calls of callbacks, if each callback by itself ends.",
  "every signal, every set of callbacks and whatever methods of the signal they call",
  "non-termination is not observable by a test",
  f"{S}:SignalInstance._run_emit_loop_immediate", f"{S}:SignalInstance._append_slot")
p("Descriptors that share a group class do not influence each other",
  "The signals of a class that uses SignalGroupDescriptor(signal_group_class=G, collect_fields=False, signal_aliases=...) depend only on its own arguments, not on other classes that use the same G.",
  "every sequence of classes and instances using G",
  "depends on which classes are used earlier in the process",
  f"{GD}:SignalGroupDescriptor._create_group", f"{GD}:SignalGroupDescriptor.__get__")
p("Threads that emit do not block each other for ever",
  "When several threads emit, connect and disconnect, and every callback by itself ends, then some thread can always go on.",
  "every number of threads and signals and every schedule",
  "needs a particular interleaving of two threads",
  f"{S}:SignalInstance._run_emit_loop", f"{S}:SignalInstance.connect")
p("Signals do not keep their object alive",
  "Accessing the signals or the signal group of an object does not keep the object alive, and nothing of it is left in the caches when it is gone.",
  "every history of object creation, access and destruction, every kind of class",
  "lifetimes depend on the class, leaks are not observed by the results",
  f"{S}:Signal._cache_signal_instance", f"{S}:SignalInstance._instance_ref", f"{GD}:SignalGroupDescriptor.__get__")
# ---- checks, groups ----------------------------------------------------------
p("emit(check_nargs=True) rejects exactly the wrong numbers of arguments",
  "emit(*args, check_nargs=True) on a signal that is not blocked raises TypeError, calls nobody and changes nothing iff the signature of the signal cannot be called with args; otherwise it does what emit(*args) does.",
  "every signature Python allows, every arguments, every state of the signal",
  "all signatures with defaults, *args and keyword-only parameters",
  f"{S}:SignalInstance.emit")
p("emit(check_types=True) rejects exactly the values of a wrong type",
  "emit(*args, check_types=True) raises TypeError and calls nobody iff a value is not an instance of the type declared at its position (a parameter without type takes every value); otherwise it does what emit(*args) does.",
  "every signature and every arguments",
  "all combinations of declared and actual types",
  f"{S}:SignalInstance.emit", f"{S}:_parameter_types_match", f"{S}:_is_subclass")
p("connect(check_types=True) accepts exactly the callbacks that can take the declared types",
  "A callback connected with check_types=True is never passed a value outside its annotation by an emission that checks types, and a callback whose annotations allow all values of the declared types is accepted; a refused callback raises ValueError and changes nothing.",
  "every pair of signatures",
  "all combinations of annotations, superclasses and unions",
  f"{S}:SignalInstance.connect", f"{S}:_parameter_types_match", f"{S}:_is_subclass")
p("connect_direct connects to every signal of a group or to none",
  "After group.connect_direct(slot) every signal of the group has exactly one more connection (or already had it, with unique=True), no other signal changes; if it raises, nothing changes.",
  "every group, every slot and options",
  "groups whose signals have different signatures",
  f"{G}:SignalRelay.connect_direct")
p("group.block() blocks exactly the signals that are not excluded",
  "After group.block(exclude) the group and every signal of it that is not in exclude, neither by name nor itself, is blocked; no other signal changes and no connection changes.",
  "every group, exclusion list and state of the signals",
  "all exclusion lists and states",
  f"{G}:SignalRelay.block")
p("A blocked group tells its listeners nothing",
  "While a group is blocked its listeners are not called.",
  "every group, exclusion list, and emission of a member",
  "combines exclusions with group listeners",
  f"{G}:SignalRelay.block", f"{G}:SignalRelay._slot_relay")
p("EventedSet reads like the builtin set",
  "copy, difference, intersection, symmetric_difference, union, issubset, issuperset, isdisjoint, the operators &, |, -, ^, the comparisons, in and len give what the builtin set gives for the same elements and arguments; the set does not change and nothing is emitted.",
  "every set, every arguments (lists, iterators, sets, the set itself), every hash/equality that is an equivalence",
  "all kinds of iterables for every operation",
  f"{ES}:_BaseMutableSet.difference", f"{ES}:_BaseMutableSet.intersection", f"{ES}:_BaseMutableSet.symmetric_difference", f"{ES}:_BaseMutableSet.union", f"{ES}:_BaseMutableSet.issubset")
p("Results of operations on ordered sets keep the order of the set",
  "In the OrderedSet that an operation on an OrderedSet gives, the elements that come from the set are in the order of the set, followed by the new ones in the order of the arguments.",
  "every ordered set and every arguments",
  "all orders and arguments with repetitions",
  f"{ES}:_BaseMutableSet.symmetric_difference", f"{ES}:_BaseMutableSet.union", f"{ES}:OrderedSet")
p("A signal group is a mapping of its signals, which are also its attributes",
  "list(group) gives the name of every signal of the class and its bases once, len and in agree with it; group[name] is always the same SignalInstance, made for that signal, a different one for each name; group.name is group[name] if the name is not reserved; unknown names raise KeyError.",
  "every class made by any number of class statements, every sequence of attribute accesses",
  "all combinations of inheritance, redefinition, explicit names and accesses",
  f"{G}:SignalGroup.__init__", f"{G}:SignalGroup.__getitem__", f"{G}:SignalGroup.__iter__", f"{S}:Signal.__get__")
p("Group classes can be subclassed",
  "A class statement with a group class as base, without attributes starting with _psygnal, succeeds if it is not strict; without new attributes it has the same signals and attributes as the base.",
  "every group class made by class statements, every set of new attributes",
  "all hierarchies and reserved names",
  f"{G}:SignalGroup.__init_subclass__")
p("An EventedModel has a signal for everything that can be assigned",
  "The events of a model class are: one for each field that is not frozen, and, if property setters are allowed, one for each property with a setter, inherited ones included; with the reemission mode of the configuration.",
  "every sequence of class statements, fields, properties and configurations",
  "all combinations of inheritance and configuration",
  f"{M}:EventedMetaclass.__new__")
p("Dependents of model fields",
  "The dependents of a field are exactly those declared in field_dependencies and, if asked for, those guessed from the getters; each of them has a signal, so that assigning to the field does not fail.",
  "every class statement, configuration and instance",
  "all combinations of inheritance, frozen fields and configuration",
  f"{M}:_get_field_dependents", f"{M}:EventedModel._setattr_impl")
p("Assigning to a property of a model uses the setter Python finds",
  "With allow_property_setters, assigning to a name that is a property calls the setter of the property that the class has under this name; if it has no setter, the assignment fails.",
  "every hierarchy of model classes",
  "all ways to redefine a property",
  f"{M}:EventedMetaclass.__new__", f"{M}:EventedModel._super_setattr_")
p("reset() gives the model the values of a new one",
  "After m.reset(), m is equal to a newly created model of its class, nested models included; fields that are frozen keep their values; nothing is raised.",
  "every class description, every tree of models of any depth",
  "all combinations of kinds of defaults and nesting",
  f"{M}:EventedModel.reset", f"{M}:_get_defaults")
p("update() makes a model equal to another, or sets the fields named in a dict",
  "After m.update(other) with a model of the same class, m is equal to other, nested models included; m.update(values, recurse=False) with a dict sets exactly the fields in it, up to the first that m does not have or that is frozen, where it raises.",
  "every class description, every two trees of models of any depth, every dict",
  "all combinations of nesting and keys",
  f"{M}:EventedModel.update")
p("Reading an EventedList is reading a list",
  "l[i], slices, iteration, reversed, len, in, index, count, ==, copy and + of an EventedList give the items (exceptions) that a list with the same items gives.",
  "every list, every index, slice, value and other operand, every == of items",
  "all indexes, bounds and slices on all lists, with lists as items",
  f"{EL}:EventedList.__getitem__", f"{EL}:EventedList.copy", f"{EL}:EventedList.__add__", f"{EL}:EventedList.__radd__", f"{EL}:EventedList.__eq__")
p("Settings, equality and hashes of EventedLists",
  "Copies, slices and sums of an EventedList have its hashable and child_events settings; == is an equivalence if that of the items is; lists that are equal and hashable have the same hash, hash() of the others raises TypeError.",
  "every EventedList and settings",
  "all settings and contents",
  f"{EL}:EventedList.__init__", f"{EL}:EventedList.__hash__", f"{EL}:EventedList.__eq__", f"{EL}:EventedList.copy")
p("Reading an EventedDict is reading a dict",
  "d[k], get, in, len, iteration, items, values, membership in them and == of an EventedDict are those of a dict with the same entries; copy() has the same entries in the same order and the same basetype.",
  "every dict, every equivalence of keys, every == of values, every key and other dict",
  "all dicts and keys with arbitrary equality",
  f"{ED}:TypedMutableMapping.__getitem__", f"{ED}:TypedMutableMapping.copy", f"{ED}:TypedMutableMapping.__newlike__")
p("Equality of EventedModels",
  "m == other is True for two models iff every field has equal values in both; it is an equivalence if == of the values is; with a dict, iff it equals model_dump().",
  "every table of operators, any values and comparisons, any classes",
  "all combinations of classes, operators and raising comparisons",
  f"{M}:EventedModel.__eq__", f"{GD}:_check_field_equality")
p("Assigning to a field of an evented object emits its signal once, in every class hierarchy",
  "When the events of an object have been read, each assignment to a field that gives it another value emits the signal of the field exactly once, in every group the object has, whichever of its classes are evented, define __setattr__, or have instances whose events were read, and in whatever order; apart from this, assignments do what they do without psygnal.",
  "every hierarchy and __mro__, every history of reading groups and of assignments",
  "all orders in which classes are patched",
  f"{GD}:SignalGroupDescriptor._do_patch_setattr", f"{GD}:evented_setattr", f"{GD}:SignalGroupDescriptor.__get__")
p("emit_queued in several threads",
  "Whatever the threads do and however they are interrupted: each call queued for a thread is made exactly once, in the order of queueing; when emit_queued returns, all calls queued by then have been made or are being made; emit_queued does not wait.",
  "every number of threads, every interleaving of emissions, emit_queued calls (nested, for any thread) and callbacks",
  "all interleavings",
  f"{Q}:QueuedCallback.cb", f"{Q}:emit_queued")
p("Reporting a callback's exception does not replace it",
  "Building the EmitLoopError (or RecursionError) for a callback's exception never fails: whatever the exception, the emitting object, the arguments and the local variables are, what leaves emit() is the EmitLoopError with the callback's exception as its cause.",
  "every exception, object, argument list and stack, with any outcome of str(), repr() and bool()",
  "all user classes with raising special methods",
  "src/psygnal/_exceptions.py:EmitLoopError.__init__", "src/psygnal/_exceptions.py:_build_psygnal_exception_msg", f"{S}:SignalInstance._run_emit_loop")
p("What an EmitLoopError says",
  "The message names the signal with its class and module, the exception with its text, the nesting depth, the first frame outside psygnal that led to the emission, the frame that raised and the number of frames between it and the callback, and the local variables there except self and cls; with PSYGNAL_HIDE_LOCALS set it does not depend on the local variables.",
  "every stack, traceback, set of local variables and environment",
  "all stacks and paths",
  "src/psygnal/_exceptions.py:_build_psygnal_exception_msg", "src/psygnal/_exceptions.py:_fmt_frame", "src/psygnal/_exceptions.py:_fmt_locals")
p("Fields are compared with the operator given for them",
  "The operator that decides whether an assignment changes a field is the one given in equality_operators, else the one in the class's __eq_operators__, else the default for the type of the field; it stays the same, whatever other classes are made and whatever is compared.",
  "every class hierarchy, every history of declarations, groups built and comparisons, every outcome of the operators",
  "all histories and hierarchies",
  f"{GD}:_get_eq_operator_map", f"{GD}:_check_field_equality", f"{GD}:_build_dataclass_signal_group")
p("A WeakCallback can be connected like the callable it stands for",
  "A WeakCallback (as returned by connect_setattr, or made by weak_callback) can be connected to any signal, with the checks and priority of any callable; it is called like it, and the connection ends when its object dies, so that later emissions do not raise.",
  "every history of connections, disconnections and deaths, any signals, priorities and signatures",
  "all histories over several signals that share WeakCallbacks",
  f"{W}:weak_callback", f"{S}:SignalInstance.connect", f"{S}:SignalInstance._try_discard")
p("Every field of a class gets a signal",
  "An evented class has a signal for each of its fields, inherited ones included, as its library defines them: for dataclasses, exactly the names that the nearest decorated class among its bases annotates as an ordinary field (no ClassVar, no InitVar), with the type given there, once each and in the order of their first declaration; for pydantic the fields that are not frozen; for attrs and msgspec all fields.",
  "every module of class statements, with and without @dataclass, redeclaring fields in any way; every class of another library",
  "all class hierarchies",
  f"{DU}:iter_fields", f"{GD}:_build_dataclass_signal_group")
p("The names of the fields of an EventedModel do not matter",
  "Whatever a field of an EventedModel is called, assigning a new value to it stores the value and emits it through the field's signal, as for any other name, and the assignment does nothing else to the group of signals.",
  "every class, field name, value and state, with any listeners",
  "all field names, including those that are attributes of SignalGroup",
  f"{M}:EventedModel._setattr_no_dependants", f"{M}:EventedModel._check_if_values_changed_and_emit_if_needed", f"{G}:SignalGroup.__init_subclass__")
p("A Selection announces its active and its current item",
  "events.active and events._current are emitted when, and only when, an operation changes the active or the current item, once, with its new value: a listener that keeps the last value it got always has the attribute's value. Assigning active makes the item the only selected one and the current one; clear() also sets the current item to None, unless keep_current is given.",
  "every history of operations, also failed ones, every parent, any listeners that do not use the selection",
  "the setters of active and of the selection call each other, for each item of a bulk operation",
  f"{SE}:Selection.active", f"{SE}:Selection._current", f"{SE}:Selection._update_active", f"{SE}:Selection.clear")
p("select_next moves the selection",
  "select_next(step) on a SelectableEventedList selects the item step positions from the current one (with wraparound, around; otherwise at most the last or first), which becomes the active and current item and, unless expand_selection is given, the only selected one; with nothing selected it starts at an end. It does not change the list, and does not fail.",
  "every list, selection, step and flags, any listeners that do not use the list",
  "all lists, positions and steps",
  f"{SL}:SelectableEventedList.select_next", f"{SL}:SelectableEventedList.select_previous")
p("remove_selected removes what is selected",
  "remove_selected() returns the selected items, removes each of them from the list, keeps all others in order, and selects the item before the last one removed; with nothing selected it does nothing.",
  "every list and selection, any listeners that do not use the list",
  "all lists and selections; each removal changes the selection that is being removed",
  f"{SL}:SelectableEventedList.remove_selected")
p("Qt timers make the queued calls",
  "After start_emitting_from_queue(msec, type, thread) the thread has exactly one active QTimer, with that interval and type, until stop_emitting_from_queue for it; each of its timeouts makes, in that thread, all calls waiting for the thread in order. Starting again only changes interval and type; other threads' timers are not touched.",
  "every number of threads and every sequence of starts, stops, timeouts and emissions in them",
  "all interleavings of threads; needs a running Qt event loop in each",
  f"{QT}:start_emitting_from_queue", f"{QT}:stop_emitting_from_queue", f"{Q}:emit_queued")
p("Qt signals are called with the arguments they take",
  "A Qt signal of PyQt or PySide (or its emit method) that is connected as a callback, with check_nargs on, is accepted if and only if it takes no more arguments than the psygnal signal declares; it is then called with just as many arguments as it takes. Connecting a callback does not emit any signal.",
  "every Qt signal (name and types), psygnal signal and options of connect",
  "needs both Qt libraries and the compiled psygnal; the signature is read from texts and from an error message",
  f"{S}:_guess_qtsignal_signature", f"{S}:_ridiculously_call_emit", f"{S}:_acceptable_posarg_range", f"{S}:_get_signature_possibly_qt")
p("recompile undoes decompile",
  "decompile() moves the contents of each compiled module to its backup, so that no compiled module is left, and touches no other file; recompile() after it restores every file. Neither loses a file's contents.",
  "every set of files, in whatever order they are found",
  "all sets of files, including leftovers of earlier calls",
  f"{U}:decompile", f"{U}:recompile")
p("Indices and slices of an EventedList are Python's",
  "l[s], l[s] = xs and del l[s] read, replace and remove just the items at the positions that Python's slice s means, in the slice's order (a section for step 1, item by item otherwise), and keep all others; l[i] = v, insert, pop and del work at the position i, counted from the end if negative. Step 0 and wrong numbers of values give ValueError, positions outside IndexError, and nothing changes.",
  "every list, index, slice (all starts, stops and steps, present or absent) and values, any listeners that do not use the list",
  "all combinations of bounds, signs and steps; the events are computed from the slice as well",
  f"{EL}:EventedList.__getitem__", f"{EL}:EventedList.__setitem__", f"{EL}:EventedList.__delitem__", f"{EL}:EventedList._delitem_indices", f"{EL}:EventedList.insert")
p("Containers stay consistent when their listeners use them",
  "Whatever the listeners of an EventedDict do with it while it is being changed (set, delete, pop, clear, update, also in nested events), its values remain of its base types and its keys distinct; the elements of an EventedSet remain distinct.",
  "every program and every listeners that use the container only through its methods, nested to any depth, with exceptions",
  "all nestings of events, listeners and operations",
  f"{ED}:EventedDict.__setitem__", f"{ED}:EventedDict.__delitem__", f"{ED}:TypedMutableMapping._type_check", f"{ES}:_BaseMutableSet.add", f"{ES}:_BaseMutableSet.discard")
p("Events of containers are true when they are emitted",
  "Also when listeners use the container: when adding(k) is emitted k is not there; when changing(k) or removing(k) is, k is there; when added(k, v) or changed(k, old, v) is, d[k] is v, and v is not old; when removed(k, v) is, k is not there. When items_changed(added, removed) of an EventedSet is emitted, what was added is there, what was removed is not, and not both are empty.",
  "every program and every listeners that use the container only through its methods, nested to any depth, with exceptions",
  "all nestings of events, listeners and operations; other listeners may act between an operation's first and last event",
  f"{ED}:EventedDict.__setitem__", f"{ED}:EventedDict.__delitem__", f"{ES}:EventedSet._emit_change")
p("Events of containers tell their history",
  "Also when listeners use the container: applying added, changed and removed (items_changed) in the order in which they are emitted to what an EventedDict (EventedSet) was gives its content at each of these events and in the end. No key is added twice without being removed in between; deleting an entry that is there does not raise KeyError; clear() removes everything.",
  "every program and every listeners that use the container only through its methods, nested to any depth, with exceptions",
  "all nestings of events, listeners and operations, for instance a listener of adding or removing that acts on the same key",
  f"{ED}:EventedDict.__setitem__", f"{ED}:EventedDict.__delitem__")
p("Each event of an EventedList tells exactly what changed, also when listeners use the list",
  "Each event of an EventedList describes exactly the difference between the list when the previous event was emitted and the list when this one is: inserted(i, v) that v was inserted at i and nothing else happened, removed(i, v) that v was at i and was removed, changed(i, old, new) that old was at i and new, another value, took its place (likewise for slices), moved(i, j, v) that v went from i to j; reordered that at most the order changed; inserting, removing and moving that nothing did. After the last event nothing changes any more.",
  "every program and every listeners that use the list only through its methods, nested to any depth, with exceptions",
  "all nestings of events, listeners and operations; other listeners may act between an operation's first and last event",
  f"{EL}:EventedList.insert", f"{EL}:EventedList.__setitem__", f"{EL}:EventedList.__delitem__", f"{EL}:EventedList.move", f"{EL}:EventedList.move_multiple")
p("Operations of an EventedList act on the items they are called for, also when listeners use the list",
  "pop() returns the item that it removes, and after clear() the list is empty, also when listeners of removing use the list.",
  "every program and every listeners that use the list only through its methods, nested to any depth",
  "all nestings of events, listeners and operations",
  f"{EL}:EventedList.__delitem__")
p("A Selection stays consistent when its listeners use it",
  "Whatever the listeners of a Selection do with it (select, deselect, make active, set the current item, clear, pause, also in nested events): when an operation or a program using it returns normally, the selection has no item twice, all its items are in the parent, and active is the selected item if there is exactly one and None otherwise.",
  "every program and every listeners that use the selection only through its methods and do not catch exceptions, nested to any depth; programs that return normally",
  "all nestings of events, listeners and operations; _update_active and the active setter call each other while listeners change the selection",
  f"{SE}:Selection.active", f"{SE}:Selection._update_active", f"{SE}:Selection._emit_change", f"{SE}:Selection.select_only", f"{SE}:Selection.clear")
p("The last events of a Selection are right when its listeners use it",
  "When a program returns normally, the last event of active carried the active item, and the current item is the one that was made active last.",
  "every program and every listeners that use the selection only through its methods and do not catch exceptions, nested to any depth",
  "all nestings of events, listeners and operations",
  f"{SE}:Selection.active", f"{SE}:Selection._update_active")
p("The last value announced of each attribute of a model is its value, also when listeners assign to the model",
  "Whatever the listeners of an EventedModel assign to it while its events are emitted (fields, properties with setters, update(), also in nested events): when the program returns normally, the last value emitted of each attribute, or the value at the beginning if none was, is its value, also for dependent properties, and the model remembers no changes that are still to be announced.",
  "every model class, every program and every listeners that use the model by assignments and update(), disconnect nothing and do not catch exceptions, nested to any depth; programs that return normally",
  "all nestings of events, listeners and assignments; the model collects changes and announces them later, while listeners make others",
  f"{M}:EventedModel.__setattr__", f"{M}:EventedModel._setattr_impl", f"{M}:EventedModel._check_if_values_changed_and_emit_if_needed", f"{M}:EventedModel.update")
p("A value is announced while the attribute has it",
  "Whenever a signal of an EventedModel is emitted, the attribute has the value that is emitted, also when listeners assign to the model.",
  "every model class, every program and every listeners that use the model by assignments and update(), nested to any depth",
  "all nestings of events, listeners and assignments",
  f"{M}:EventedModel._check_if_values_changed_and_emit_if_needed", f"{M}:EventedModel._setattr_no_dependants")
p("The selection of a SelectableEventedList stays consistent when listeners use the list",
  "Whatever the listeners of a SelectableEventedList and of its selection do with both (insert, delete, pop, remove, move, select, deselect, select_next, remove_selected, also in nested events): when an operation or a program using it returns normally, the selected items are items of the list, none is selected twice, and active is the selected item if there is exactly one and None otherwise.",
  "every program and every listeners that use the list and the selection only through these methods and do not catch exceptions, nested to any depth; programs that return normally",
  "all nestings of events, listeners and operations; items are removed from the list before they are removed from the selection",
  f"{SL}:SelectableEventedList._on_item_removed", f"{SL}:SelectableEventedList.insert", f"{SL}:SelectableEventedList.remove_selected", f"{SE}:Selection._update_active", f"{SE}:Selection.active")
p("A new container holds what it is given",
  "EventedDict(data, **kwargs) holds what dict(data, **kwargs) holds, in the same order, or raises TypeError if a value is not of one of the base types; EventedList, EventedSet and EventedOrderedSet hold the items given; Selection(data, parent) has the data selected and the right active item, or raises ValueError for items outside the parent; SelectableEventedList(data) holds the data and has its last item selected and active. No callback of any object is called by this, although the constructors emit signals.",
  "all data, keyword arguments, base types and parents; every state of the rest of the program",
  "arbitrary data with repeated keys and items, items that are None, and wrong types at any position",
  f"{ED}:EventedDict.__init__", f"{ED}:TypedMutableMapping.__init__", f"{EL}:EventedList.__init__", f"{ES}:OrderedSet.__init__", f"{ES}:EventedSet.__init__", f"{SE}:Selection.__init__", f"{SE}:Selectable.__init__", f"{SL}:SelectableEventedList.__init__")
p("enums_as_values is a temporary setting",
  "While a use of enums_as_values(b) runs, the setting of its model class is b (of the innermost use, if several run); when no use runs any more, the configuration of the class is exactly what it would be without the uses, also when their bodies raise or assign other entries. Classes do not influence each other. enums_as_values raises nothing itself.",
  "all configurations and all interleavings of uses (with statements, generators, threads, tasks) and assignments; nested uses for each class",
  "all interleavings of uses of any number of classes",
  f"{M}:EventedModel.enums_as_values")
p("A signal is what was declared",
  "The instances of Signal(*types, name, check_nargs_on_connect, check_types_on_connect, reemission) have the given name (or that of the class attribute), these options, one parameter for each type, in order, and accept exactly as many arguments; with a Signature, they have that one. They have the reemission mode that the argument names, in upper or lower case; any other argument is rejected with ValueError when the signal is declared.",
  "all types, signatures, names, options and strings",
  "all strings as mode and all numbers of types and arguments",
  f"{S}:Signal.__init__", f"{S}:ReemissionMode.validate", f"{S}:_build_signature", f"{S}:Signal._create_signal_instance", f"{S}:SignalInstance.__init__")
p("evented makes a class evented under its namespace",
  "After evented(events_namespace=n) on a class, or a class statement with a SignalGroupDescriptor called n, is_evented is true of the class and of the classes derived from it, get_evented_namespace is n, unless a class in between declares another, and the attribute n is the descriptor, which knows its name. Nothing else of any class changes. Frozen classes, and those with fields that start with _psygnal, are rejected with TypeError.",
  "all programs of class statements, decorators and assignments of attributes, all hierarchies with several bases",
  "all hierarchies of classes and orders of declarations",
  f"{DE}:evented", f"{GD}:is_evented", f"{GD}:get_evented_namespace", f"{GD}:SignalGroupDescriptor.__set_name__")
p("A throttled or debounced callback stays connected",
  "After signal.connect(throttled(f)) or signal.connect(debounced(f)), as in their documentation, f is called for the emissions that follow: when the timer next fires, the last call made was with the arguments of the last emission. f is called with no other arguments, not while the timer runs, and at most once for each emission.",
  "both wrappers, leading or not, every history of connections, emissions, timers, and of the references to the wrapper",
  "all interleavings of emissions, timers, garbage collection and the end of references",
  f"{T}:throttled", f"{T}:debounced", f"{T}:_ThrottlerBase._start_timer", f"{W}:weak_callback", f"{W}:WeakFunction", f"{S}:SignalInstance.connect")
p("Fields bound to each other agree",
  "If fields of evented dataclass objects are bound by a.events.x.connect_setattr(b, 'y') in any way, also in cycles: an assignment ends; the fields bound to one that emitted have the new value; no other field changes; each signal emits at most once, with the new and the old value, exactly if it has listeners and its value changed. Fields bound to each other in both directions that are equal stay equal.",
  "every graph of bindings, every values, every equality operators, every assignment",
  "all graphs with cycles, and all values",
  f"{GD}:_DataclassFieldSignalInstance.connect_setattr", f"{GD}:_changes_emitted.__exit__", f"{GD}:evented_setattr", f"{GD}:_check_field_equality", f"{W}:WeakSetattr.cb", f"{S}:SignalInstance.connect_setattr")
p("Suppressing EmitLoopError lets the other callbacks run",
  "As the documentation says (docs/usage.md, Exceptions in Callbacks): when a signal is emitted under contextlib.suppress(EmitLoopError), exceptions of callbacks are ignored and all other connected callbacks are still called.",
  "every program, every connected callbacks, every arguments, every callback that raises",
  "the documented use is not tested; it depends on the order of the callbacks",
  f"{S}:SignalInstance.emit", f"{S}:SignalInstance._run_emit_loop", f"{S}:SignalInstance._run_emit_loop_immediate")
p("Signal.sender is the object whose signal called the callback",
  "Inside a callback, Signal.sender() is the object that owns the signal that was emitted, as long as that object exists, also after nested emissions; outside all emissions it is None. This includes callbacks connected with thread=... .",
  "every nesting of emissions and exceptions, every object, every thread a callback is connected for",
  "must hold for all nestings; queued callbacks run outside of the emission",
  f"{S}:Signal.sender", f"{S}:Signal._emitting", f"{S}:SignalInstance.instance", f"{S}:SignalInstance._instance_ref", f"{Q}:QueuedCallback.cb", f"{Q}:emit_queued")

with open(os.path.join(os.path.dirname(__file__), "..", "properties.jsonl"), "w") as f:
    for x in P:
        f.write(json.dumps(x) + "\n")
print(len(P))
