{"id": "C01", "title": "Callback order is priority order, then connection order", "statement": "At every moment, the callbacks of a signal are ordered by descending `priority`, and callbacks of equal priority are in the order in which they were connected, whatever connects, disconnects and deaths of receivers happened before, including ones performed by callbacks during an emission.", "quantifier": "every finite history of API calls, with arbitrary re-entrant callbacks, observed at any point inside or between callbacks", "why_tests_cant": "the order is the result of the whole interleaving of connects, disconnects and receiver deaths; a test sees a few histories", "anchors": ["src/psygnal/_signal.py:SignalInstance._append_slot", "src/psygnal/_signal.py:SignalInstance.connect", "src/psygnal/_signal.py:SignalInstance._remove_slot"]}
{"id": "C02", "title": "An emission calls every connected callback exactly once, in order", "statement": "If no callback connects or disconnects anything on the emitting signal, one `emit(*args)` in immediate mode calls each connected callback exactly once, in slot order, each with the emitted arguments cut to that callback's `max_args`; if a callback raises, exactly the callbacks up to and including the raising one were called.", "quantifier": "every slot list, argument tuple, state of the rest of the program and callback behaviour that leaves the slots of this signal alone", "why_tests_cant": "callbacks are arbitrary code which may emit other signals, nest emissions of the same signal, raise, block, pause", "anchors": ["src/psygnal/_signal.py:SignalInstance._run_emit_loop_immediate", "src/psygnal/_signal.py:SignalInstance._run_emit_loop", "src/psygnal/_weak_callback.py:WeakCallback.cb"]}
{"id": "C03", "title": "Changing connections during an emission never makes another callback lost or doubled", "statement": "When a callback disconnects itself (or another callback), or connects a new one, while the signal is being emitted, every other callback that was connected before the emission and still is afterwards is called exactly once by that emission.", "quantifier": "every slot list and every callback behaviour", "why_tests_cant": "depends on which position is being visited when the list is changed; tests try one or two positions", "anchors": ["src/psygnal/_signal.py:SignalInstance._run_emit_loop_immediate", "src/psygnal/_signal.py:SignalInstance.disconnect"]}
{"id": "C04", "title": "connect() accepts a callback exactly when it can be called, and never passes it too many or too few arguments", "statement": "With check_nargs on, connect accepts a callback exactly when it has no required keyword-only parameter and requires no more positional arguments than the signal declares; every later emission with the declared number of arguments (or more) calls the callback with a number of arguments its signature accepts.", "quantifier": "every parameter list (positional-only, positional-or-keyword, *args, keyword-only, **kwargs, defaults), every signal arity and every number of emitted arguments at least the declared one", "why_tests_cant": "the space of signatures is infinite", "anchors": ["src/psygnal/_signal.py:_acceptable_posarg_range", "src/psygnal/_signal.py:SignalInstance._check_nargs", "src/psygnal/_weak_callback.py:WeakCallback.cb"]}
{"id": "C05", "title": "A callback's exception surfaces as one EmitLoopError carrying the original error", "statement": "If a callback raises an Exception e that is neither RecursionError nor EmitLoopError, the emit call raises EmitLoopError whose cause is e; an EmitLoopError coming from a nested emission passes through unchanged, a RecursionError surfaces as RecursionError, and a BaseException that is not an Exception passes unchanged. emit never lets a raw callback Exception escape.", "quantifier": "every signal, callback behaviour, nesting depth and exception", "why_tests_cant": "needs every combination of nesting and exception class", "anchors": ["src/psygnal/_signal.py:SignalInstance._run_emit_loop", "src/psygnal/_exceptions.py:EmitLoopError"]}
{"id": "C06", "title": "A signal is always usable again after an emission, however it ended", "statement": "After an outermost emit/emit_fast/resume call returns or raises, no emission of any signal is marked as in progress: the recursion depth is what it was before, nothing is left in the re-emission queue, and Signal.current_emitter() is what it was before.", "quantifier": "every program state, signal, arguments, callback behaviour (including exceptions of any kind thrown and caught at any depth)", "why_tests_cant": "the clean-up has to be right on every exit path through every nesting of emissions of every signal", "anchors": ["src/psygnal/_signal.py:SignalInstance._run_emit_loop", "src/psygnal/_signal.py:Signal._emitting", "src/psygnal/_signal.py:SignalInstance.emit_fast"]}
{"id": "C07", "title": "Recursion is bounded by RECURSION_LIMIT", "statement": "At no moment are more than 300 emissions of the same signal nested; attempting one more raises RecursionError without calling any callback and without changing the signal.", "quantifier": "every reachable state and callback behaviour", "why_tests_cant": "requires an invariant over all nested executions", "anchors": ["src/psygnal/_signal.py:RECURSION_LIMIT", "src/psygnal/_signal.py:SignalInstance._run_emit_loop", "src/psygnal/_signal.py:SignalInstance.emit_fast"]}
{"id": "C08", "title": "'queued' re-emission is breadth first and first-in first-out", "statement": "With reemission='queued', values emitted by callbacks during an emission are delivered after the current value has been delivered to all callbacks, in the order in which they were emitted, each to all callbacks; and one emission never delivers more than 300 values before RecursionError.", "quantifier": "every slot list, argument and callback behaviour that leaves the slots of this signal alone", "why_tests_cant": "the set of re-emission patterns is unbounded", "anchors": ["src/psygnal/_signal.py:SignalInstance._run_emit_loop_queued", "src/psygnal/_signal.py:SignalInstance._run_emit_loop"]}
{"id": "C09", "title": "'latest-only' re-emission abandons the older value", "statement": "With reemission='latest-only', the callbacks called with the original value are exactly those up to the first one during which the signal was emitted again: the remaining callbacks at that level are never called with the older value.", "quantifier": "every slot list, argument and callback behaviour that leaves the slots of this signal alone", "why_tests_cant": "the set of re-emission patterns is unbounded", "anchors": ["src/psygnal/_signal.py:SignalInstance._run_emit_loop_latest_only"]}
{"id": "C10", "title": "'latest-only' never drops the latest value", "statement": "With reemission='latest-only', a value emitted by a callback during an emission is delivered to all callbacks unless a newer emission supersedes it.", "quantifier": "every slot list and every callback behaviour", "why_tests_cant": "only particular nesting patterns (a deeper emission followed by a shallower one) expose a violation", "anchors": ["src/psygnal/_signal.py:SignalInstance._run_emit_loop_latest_only", "src/psygnal/_signal.py:SignalInstance._run_emit_loop"]}
{"id": "C11", "title": "'immediate' re-emission is depth first", "statement": "With reemission='immediate', a nested emission starts and finishes between the start and the end of the callback that performed it, and the outer emission then goes on with the original value for all remaining callbacks: call and return events are always properly nested.", "quantifier": "every callback behaviour and nesting", "why_tests_cant": "proper nesting must hold of all executions", "anchors": ["src/psygnal/_signal.py:SignalInstance._run_emit_loop_immediate"]}
{"id": "C12", "title": "disconnect undoes connect; len and `in` agree with the connections", "statement": "connect adds exactly one connection; disconnect(slot) removes exactly the first connection of that slot and leaves all others in place and order; disconnect() removes all; `slot in sig` is true iff a connection with that slot exists; disconnecting a slot which is not connected changes nothing and raises ValueError iff missing_ok is False. connect immediately followed by disconnect of a slot that was not connected restores the previous connections.", "quantifier": "every slot list, callable and option set", "why_tests_cant": "must hold for all slot lists including duplicates and priorities", "anchors": ["src/psygnal/_signal.py:SignalInstance.disconnect", "src/psygnal/_signal.py:SignalInstance._slot_index", "src/psygnal/_signal.py:SignalInstance.__contains__"]}
{"id": "C13", "title": "unique=True never creates a duplicate connection", "statement": "If every connect on a signal uses unique=True or unique='raise', no slot is ever connected twice; connecting a connected slot changes nothing, and raises ValueError exactly with 'raise'.", "quantifier": "every history of API calls using unique connects", "why_tests_cant": "an invariant over all histories", "anchors": ["src/psygnal/_signal.py:SignalInstance.connect"]}
{"id": "C14", "title": "Slot identity: two callables are the same slot only if they are the same callable", "statement": "disconnect(slot), `slot in sig` and unique=True treat two callables as the same slot only if they are the same function, or the same method of the same object, or partials of it with the same bound arguments.", "quantifier": "all pairs of callables", "why_tests_cant": "identity is decided by a computed key; tests compare a handful of pairs", "anchors": ["src/psygnal/_weak_callback.py:WeakCallback.object_key", "src/psygnal/_weak_callback.py:WeakCallback.__eq__", "src/psygnal/_weak_callback.py:weak_callback"]}
{"id": "C15", "title": "A blocked signal does nothing when emitted", "statement": "While a signal is blocked, emit and emit_fast call no callback, queue nothing, raise nothing and leave all state unchanged, whatever arguments and checks are requested.", "quantifier": "every state, arguments and flags", "why_tests_cant": "must hold in every state, e.g. paused, mid-emission, with an installed debug hook", "anchors": ["src/psygnal/_signal.py:SignalInstance.emit", "src/psygnal/_signal.py:SignalInstance.emit_fast", "src/psygnal/_signal.py:SignalInstance.block"]}
{"id": "C16", "title": "`with signal.blocked():` restores the blocked state", "statement": "After a `with signal.blocked():` statement the signal is blocked iff it was blocked before, whether the body returned or raised and however such statements are nested, provided the body itself only changes the flag through further `blocked()` statements; inside the body the signal is blocked.", "quantifier": "every body, nesting and exception", "why_tests_cant": "arbitrary nesting and exceptional exits", "anchors": ["src/psygnal/_signal.py:_SignalBlocker", "src/psygnal/_signal.py:SignalInstance.blocked"]}
{"id": "C17", "title": "`with group.blocked():` restores every member signal", "statement": "After a `with group.blocked(exclude):` statement every signal of the group is blocked iff it was blocked before, also when such statements are nested or some signals are excluded or individually blocked.", "quantifier": "every initial blocked state, exclude set and nesting", "why_tests_cant": "all combinations of previously blocked, excluded, nested", "anchors": ["src/psygnal/_group.py:SignalRelay.block", "src/psygnal/_group.py:SignalRelay.unblock", "src/psygnal/_signal.py:_SignalBlocker"]}
{"id": "C18", "title": "pause/resume delivers every paused emission once, in order", "statement": "While paused, emit calls nothing; resume() without reducer then emits all collected argument tuples once each, in emission order, and empties the collection; with a reducer it emits exactly one tuple, the reduction of all collected tuples; with no emission in between it emits nothing; with no callbacks connected it discards the collection.", "quantifier": "every list of collected emissions, reducer, slot list, and callbacks that do not raise or touch this signal", "why_tests_cant": "unbounded sequences of emissions and arbitrary reducers", "anchors": ["src/psygnal/_signal.py:SignalInstance.resume", "src/psygnal/_signal.py:SignalInstance.pause", "src/psygnal/_signal.py:_SignalPauser"]}
{"id": "C19", "title": "A paused emission is delivered at most once even if a callback raises", "statement": "An emission collected while a signal was paused is never delivered to the same callback twice, even if a callback raises while the signal is being resumed.", "quantifier": "every list of collected emissions and callback behaviour", "why_tests_cant": "needs failures at every position of the replay", "anchors": ["src/psygnal/_signal.py:SignalInstance.resume"]}
{"id": "C20", "title": "A blocked signal stays silent when resumed", "statement": "While a signal is blocked no callback of it is called, also when resume() is called.", "quantifier": "every state with the signal blocked", "why_tests_cant": "combination of block and pause at arbitrary times", "anchors": ["src/psygnal/_signal.py:SignalInstance.resume", "src/psygnal/_signal.py:SignalInstance.block"]}
{"id": "C21", "title": "Dead receivers are disconnected and never called", "statement": "When an object which is only weakly referenced by its connections dies, all connections of its methods, attribute and item setters disappear from every signal at once, no other connection is touched, and no callback on it is ever called afterwards by an emission.", "quantifier": "every history, with receivers dying at any point, including inside callbacks", "why_tests_cant": "the moment of death is arbitrary", "anchors": ["src/psygnal/_weak_callback.py:_kill_and_finalize", "src/psygnal/_weak_callback.py:WeakMethod", "src/psygnal/_signal.py:SignalInstance._try_discard"]}
{"id": "C22", "title": "current_emitter is the emitting signal inside callbacks", "statement": "Inside a callback called by emit, Signal.current_emitter() is the signal that called it, also after nested emissions of other signals returned or raised; outside all emissions it is None.", "quantifier": "every nesting of emissions and exceptions (single thread)", "why_tests_cant": "must hold for all nestings", "anchors": ["src/psygnal/_signal.py:Signal._emitting", "src/psygnal/_signal.py:Signal.current_emitter"]}
{"id": "C23", "title": "A group listener is told exactly once about each member emission", "statement": "A callback connected to a SignalGroup is called once for each emission of a member signal, with EmissionInfo(member, args), as long as the group has been left to manage its own connections to its members.", "quantifier": "every group, history of connects and disconnects on the group and member signals that does not wipe a member's connections, every emission", "why_tests_cant": "depends on the full history of group and member connections", "anchors": ["src/psygnal/_group.py:SignalRelay._slot_relay", "src/psygnal/_group.py:SignalRelay._append_slot", "src/psygnal/_group.py:SignalRelay._remove_slot"]}
{"id": "C24", "title": "Disconnecting a member's own callbacks does not cut off the group", "statement": "After `group.member.disconnect()` the callbacks connected to the group still hear about emissions of that member.", "quantifier": "every group with connected group callbacks", "why_tests_cant": "an interaction between two API calls on different objects that tests do not combine", "anchors": ["src/psygnal/_group.py:SignalRelay._connect_relay", "src/psygnal/_signal.py:SignalInstance.disconnect"]}
{"id": "C25", "title": "Pausing a group defers its notifications", "statement": "While a group is paused, group callbacks are not called when a member emits; they are called on resume.", "quantifier": "every group and member emission", "why_tests_cant": "tests only check that the methods exist on the group", "anchors": ["src/psygnal/_group.py:SignalRelay._slot_relay", "src/psygnal/_group.py:SignalGroup.pause"]}
{"id": "C26", "title": "group.disconnect(slot, missing_ok=False) disconnects a connected slot", "statement": "If slot is connected to the group, group.disconnect(slot, missing_ok=False) disconnects it and raises nothing.", "quantifier": "every group with at least one member and every connected slot", "why_tests_cant": "depends on the combination of member and group connections", "anchors": ["src/psygnal/_group.py:SignalRelay.disconnect"]}
{"id": "C27", "title": "connect_setattr / connect_setitem bind the emitted value", "statement": "After connect_setattr(obj, name, maxargs) each emission sets obj.name to the single emitted value, or to the tuple of emitted values (after cutting to maxargs) if there is not exactly one; disconnect_setattr removes exactly that binding. Same for items.", "quantifier": "every argument tuple, maxargs, slot list", "why_tests_cant": "all argument counts and maxargs combinations", "anchors": ["src/psygnal/_weak_callback.py:WeakSetattr", "src/psygnal/_weak_callback.py:WeakSetitem", "src/psygnal/_signal.py:SignalInstance.connect_setattr", "src/psygnal/_signal.py:SignalInstance.disconnect_setattr"]}
{"id": "C28", "title": "emit_fast calls the same callbacks with the same arguments as emit", "statement": "For a signal in immediate mode, emit_fast(*args) performs the same callback calls as emit(*args) when callbacks do not ask for the current emitter, and honours block and pause in the same way.", "quantifier": "every state, arguments", "why_tests_cant": "an equivalence over all states and callback behaviours", "anchors": ["src/psygnal/_signal.py:SignalInstance.emit_fast", "src/psygnal/_signal.py:SignalInstance.emit"]}
{"id": "C29", "title": "Queued calls of thread-bound callbacks are made first in first out, exactly once", "statement": "A callback connected with thread=t is run at once when the signal is emitted in t; otherwise it is queued and run, with the emitted arguments, exactly once and in emission order by emit_queued for t; if one raises, emit_queued raises EmitLoopError and all later ones stay queued for the next call.", "quantifier": "every interleaving of emissions from any threads and emit_queued calls", "why_tests_cant": "schedules are unbounded", "anchors": ["src/psygnal/_queue.py:QueuedCallback.cb", "src/psygnal/_queue.py:emit_queued"]}
{"id": "C30", "title": "on_ref_error='raise' raises when no weak reference can be made", "statement": "connect(slot, on_ref_error='raise') raises if the receiver of slot cannot be weakly referenced.", "quantifier": "every non weakly-referenceable receiver and connect options", "why_tests_cant": "tests use the weak_callback constructor rather than connect with default options", "anchors": ["src/psygnal/_signal.py:SignalInstance._check_nargs", "src/psygnal/_weak_callback.py:WeakCallback._try_ref"]}
{"id": "C31", "title": "Pickling a signal keeps its function connections and settings", "statement": "After pickling and unpickling a signal (outside emissions), it has the same function callbacks in the same order and with the same priorities, the same blocked/paused flags, collected emissions, reemission mode and checks; it can be connected to and emitted as before.", "quantifier": "every signal state outside emissions", "why_tests_cant": "all combinations of slots and flags", "anchors": ["src/psygnal/_signal.py:SignalInstance.__getstate__", "src/psygnal/_signal.py:SignalInstance.__setstate__", "src/psygnal/_weak_callback.py:StrongFunction.__getstate__"]}
{"id": "C32", "title": "monitor_events leaves no trace", "statement": "After `with monitor_events(obj)` the connections of every monitored signal, and the global debug hook for obj=None, are what they were before, whether the body returned or raised, if the body did not change them itself; during the body each emission of a monitored signal is reported exactly once.", "quantifier": "every set of signals and body", "why_tests_cant": "arbitrary bodies", "anchors": ["src/psygnal/utils.py:monitor_events"]}
{"id": "C33", "title": "EventedList behaves like list", "statement": "Every mutation of an EventedList (insert, append, extend, item and slice assignment and deletion, pop, remove, clear, reverse, +=) leaves it with the contents a builtin list would have after the same operation, and raises the same exception class when the builtin list would raise.", "quantifier": "every list, every operation, every index (positive, negative, out of range) and slice, every sequence of operations", "why_tests_cant": "indices, slices and their combinations are unbounded", "anchors": ["src/psygnal/containers/_evented_list.py:EventedList.__setitem__", "src/psygnal/containers/_evented_list.py:EventedList.__delitem__", "src/psygnal/containers/_evented_list.py:EventedList.insert"]}
{"id": "C34", "title": "EventedList events describe the change exactly", "statement": "Each mutation announces itself before and after: `inserting/removing/moving` are emitted while the list still has its old contents, `inserted/removed/moved/changed/reordered` when it has the new contents, and applying the announced changes to a copy of the old list gives the new list.", "quantifier": "every list and every history of operations, with listeners that do not modify the list", "why_tests_cant": "requires replaying arbitrary histories", "anchors": ["src/psygnal/containers/_evented_list.py:EventedList.insert", "src/psygnal/containers/_evented_list.py:EventedList.__delitem__", "src/psygnal/containers/_evented_list.py:EventedList.__setitem__"]}
{"id": "C35", "title": "EventedList.move moves one item in pre-move coordinates", "statement": "move(src, dest) with 0 <= src < len and 0 <= dest <= len puts the item before the item that was at position dest, keeps all other items in order, and reports False without events when nothing changes.", "quantifier": "every list and every pair of indices", "why_tests_cant": "all pairs of indices for all lengths", "anchors": ["src/psygnal/containers/_evented_list.py:EventedList.move"]}
{"id": "C36", "title": "EventedList.move_multiple gathers the sources in front of the destination", "statement": "move_multiple(sources, dest) moves the items at the given distinct positions, in the given order, so that they stand together in front of the item that was at position dest (pre-move coordinates), and keeps all other items in order.", "quantifier": "every list, list of distinct source indices and destination", "why_tests_cant": "the index arithmetic has to be right for all lengths and combinations", "anchors": ["src/psygnal/containers/_evented_list.py:EventedList.move_multiple", "src/psygnal/containers/_evented_list.py:EventedList._move_plan"]}
{"id": "C37", "title": "move_multiple never loses or duplicates items", "statement": "move_multiple leaves the list with the same items, each the same number of times.", "quantifier": "every list, list of sources and destination for which it returns", "why_tests_cant": "all combinations", "anchors": ["src/psygnal/containers/_evented_list.py:EventedList.move_multiple"]}
{"id": "C38", "title": "EventedDict behaves like dict", "statement": "Every mutation of an EventedDict leaves it with the contents (and item order) a builtin dict would have after the same operation.", "quantifier": "every dict and operation (setitem, delitem, pop, popitem, clear, update, setdefault)", "why_tests_cant": "all operation sequences", "anchors": ["src/psygnal/containers/_evented_dict.py:EventedDict.__setitem__", "src/psygnal/containers/_evented_dict.py:TypedMutableMapping"]}
{"id": "C39", "title": "EventedDict events describe the change exactly", "statement": "Setting a new key emits adding before and added after; changing a key to a different object emits changing before and changed(key, old, new) after; assigning the same object emits nothing; deleting emits removing before and removed(key, value) after; replaying the events on a copy of the old dict gives the new dict.", "quantifier": "every dict and history of operations with listeners that do not modify it", "why_tests_cant": "arbitrary histories", "anchors": ["src/psygnal/containers/_evented_dict.py:EventedDict.__setitem__", "src/psygnal/containers/_evented_dict.py:EventedDict.__delitem__"]}
{"id": "C40", "title": "EventedSet behaves like set", "statement": "Every operation of an EventedSet (add, discard, remove, pop, clear, update, and the four in-place set operations) leaves it with the contents a builtin set would have.", "quantifier": "every set, operation and iterable argument (also iterables with repeated elements)", "why_tests_cant": "arguments are arbitrary iterables", "anchors": ["src/psygnal/containers/_evented_set.py:_BaseMutableSet", "src/psygnal/containers/_evented_set.py:EventedSet"]}
{"id": "C41", "title": "EventedSet bulk changes are announced once, with the exact difference", "statement": "Each mutating call emits items_changed at most once, with (added, removed) where added are exactly the elements that are new and removed exactly those that are gone, without repetition; no emission when nothing changed.", "quantifier": "every set, operation and argument", "why_tests_cant": "all contents and arguments", "anchors": ["src/psygnal/containers/_evented_set.py:EventedSet", "src/psygnal/containers/_evented_set.py:_reduce_events"]}
{"id": "C42", "title": "EventedOrderedSet keeps insertion order", "statement": "An OrderedSet iterates over its elements in order of first insertion since they were last absent.", "quantifier": "every history of operations", "why_tests_cant": "arbitrary histories", "anchors": ["src/psygnal/containers/_evented_set.py:OrderedSet"]}
{"id": "C43", "title": "Selection.active is the only selected item", "statement": "At rest, selection.active is the selected item if exactly one item is selected and None otherwise, after any history of operations including failed ones.", "quantifier": "every history of operations, parent container and arguments", "why_tests_cant": "the active setter and the change notification call each other recursively", "anchors": ["src/psygnal/containers/_selection.py:Selection.active", "src/psygnal/containers/_selection.py:Selection._update_active", "src/psygnal/containers/_selection.py:Selection._emit_change"]}
{"id": "C44", "title": "The selection of a SelectableEventedList contains only items of the list", "statement": "selection is a subset of the list after any history of list and selection operations.", "quantifier": "every history of operations", "why_tests_cant": "arbitrary histories", "anchors": ["src/psygnal/containers/_selectable_evented_list.py:SelectableEventedList", "src/psygnal/containers/_selection.py:Selection"]}
{"id": "C45", "title": "Evented dataclasses announce exactly the real changes", "statement": "Assigning a field of an evented dataclass emits that field's signal with (new, old) iff the value after assignment differs (by the field's equality) from the value before, also when the assignment raises after changing the value; assigning a field that has no signal emits nothing.", "quantifier": "every class configuration, field, value and equality function (including raising ones)", "why_tests_cant": "all values and equality operators", "anchors": ["src/psygnal/_group_descriptor.py:evented_setattr", "src/psygnal/_group_descriptor.py:_changes_emitted", "src/psygnal/_group_descriptor.py:_check_field_equality"]}
{"id": "C46", "title": "Signal aliases: one signal per field, named as requested", "statement": "The signal group built for a dataclass has exactly one signal for every field that is not aliased to None, under its alias if given and under the field name otherwise, and no others than those and the predefined ones.", "quantifier": "every field list, base group and alias map or function", "why_tests_cant": "all combinations of names and aliases", "anchors": ["src/psygnal/_group_descriptor.py:_build_dataclass_signal_group", "src/psygnal/_group_descriptor.py:get_signal_from_field"]}
{"id": "C47", "title": "EventedModel announces exactly the real changes with the new value", "statement": "Assigning a field of an EventedModel emits its signal with the field's new value iff that new value differs from the old one.", "quantifier": "every model class, value and validator", "why_tests_cant": "all values and validators", "anchors": ["src/psygnal/_evented_model.py:EventedModel._setattr_no_dependants", "src/psygnal/_evented_model.py:EventedModel._setattr_impl"]}
{"id": "C48", "title": "EventedModel emits all field and dependent events after all changes are done, once each", "statement": "When a field with dependents is assigned (also through a property setter that assigns several fields), signals of the changed fields and of the dependent properties whose value changed are emitted only after all assignments are finished, each at most once with the final value; the bookkeeping is empty afterwards, whatever listeners do or raise.", "quantifier": "every dependency graph, property setter, listener behaviour", "why_tests_cant": "re-entrant setters and listeners", "anchors": ["src/psygnal/_evented_model.py:EventedModel._setattr_impl", "src/psygnal/_evented_model.py:EventedModel._check_if_values_changed_and_emit_if_needed", "src/psygnal/_evented_model.py:ComparisonDelayer"]}
{"id": "C49", "title": "A throttled function runs at most once per interval", "statement": "Two consecutive calls of the wrapped function by a Throttler (not caused by flush, and without cancel) are at least the interval apart.", "quantifier": "every timed sequence of calls and timer firings", "why_tests_cant": "all timings", "anchors": ["src/psygnal/_throttler.py:Throttler", "src/psygnal/_throttler.py:_ThrottlerBase._actually_call"]}
{"id": "C50", "title": "A throttled or debounced function always sees the last arguments", "statement": "If calls stop, the last call of the wrapped function happens at or after the last request and has its arguments, unless cancelled; no request is left pending once the timer is idle.", "quantifier": "every timed sequence of calls and every thread schedule", "why_tests_cant": "all timings and schedules", "anchors": ["src/psygnal/_throttler.py:Throttler.__call__", "src/psygnal/_throttler.py:_ThrottlerBase._call_if_has_pending"]}
{"id": "C51", "title": "A debounced function waits for silence", "statement": "A trailing Debouncer calls the wrapped function only when no request was made during the last interval, once per burst.", "quantifier": "every timed sequence of calls", "why_tests_cant": "all timings", "anchors": ["src/psygnal/_throttler.py:Debouncer"]}
{"id": "C52", "title": "Emissions of one signal from several threads are serialised", "statement": "Callbacks of two emit calls on the same signal made in different threads never interleave, and connections do not change under a running emission of another thread through connect/disconnect.", "quantifier": "every number of threads and every schedule", "why_tests_cant": "schedules are unbounded", "anchors": ["src/psygnal/_signal.py:SignalInstance._run_emit_loop", "src/psygnal/_signal.py:SignalInstance.connect"]}
{"id": "C53", "title": "current_emitter is correct with several threads", "statement": "Signal.current_emitter() inside a callback is the signal that called it, and None when no emission is running, also when several threads emit different signals.", "quantifier": "every schedule", "why_tests_cant": "needs a particular interleaving of two threads", "anchors": ["src/psygnal/_signal.py:Signal._emitting"]}
{"id": "C54", "title": "Each object has its own signal instance", "statement": "Accessing a Signal attribute twice on the same live object gives the same SignalInstance, and accesses on different live objects give different ones.", "quantifier": "every history of object creation, access and destruction, with object ids being reused", "why_tests_cant": "id reuse depends on the allocator", "anchors": ["src/psygnal/_signal.py:Signal.__get__", "src/psygnal/_signal.py:Signal._cache_signal_instance"]}
{"id": "C55", "title": "Each signal group descriptor gives its own group", "statement": "Two SignalGroupDescriptors on one class give different groups, each with its own signals.", "quantifier": "every class with several descriptors and every access order", "why_tests_cant": "tests use one descriptor per class", "anchors": ["src/psygnal/_group_descriptor.py:SignalGroupDescriptor.__get__", "src/psygnal/_group_descriptor.py:SignalGroupDescriptor._instance_map"]}
{"id": "C56", "title": "A group is uniform iff all its signals have the same signature", "statement": "psygnals_uniform() is true iff all signals of the group have the same parameter annotations, and strict groups are rejected iff it is false.", "quantifier": "every list of signals", "why_tests_cant": "all lists", "anchors": ["src/psygnal/_group.py:_is_uniform", "src/psygnal/_group.py:SignalGroup.__init_subclass__"]}
{"id": "C57", "title": "child_events reports events of exactly the items in the list", "statement": "In an EventedList with child_events=True, an event emitted by an item is re-emitted by the list iff the item is currently in the list.", "quantifier": "every history of list operations", "why_tests_cant": "arbitrary histories including replacement of items", "anchors": ["src/psygnal/containers/_evented_list.py:EventedList._connect_child_emitters", "src/psygnal/containers/_evented_list.py:EventedList._disconnect_child_emitters"]}
{"id": "C58", "title": "An evented proxy changes its target like direct access, and announces real changes", "statement": "Setting, deleting attributes and items through an EventedObjectProxy has the same effect on the target as doing it directly, and emits attribute_set/item_set iff the stored object changed.", "quantifier": "every target, key, value", "why_tests_cant": "all keys and values, including keys that do not exist yet", "anchors": ["src/psygnal/containers/_evented_proxy.py:EventedObjectProxy.__setitem__", "src/psygnal/containers/_evented_proxy.py:EventedObjectProxy.__setattr__"]}
{"id": "C59", "title": "An emission of a latest-only signal that is not being emitted reaches all callbacks", "statement": "With reemission='latest-only', emit() called while no emission of the signal is running calls every callback, in order, unless a callback raises or emits the signal again.", "quantifier": "every history of the signal before that, including emissions with emit and emit_fast in any nesting", "why_tests_cant": "the state left behind by an earlier nested emission matters only for the next one", "anchors": ["src/psygnal/_signal.py:SignalInstance._run_emit_loop_latest_only", "src/psygnal/_signal.py:SignalInstance.emit_fast"]}
{"id": "C60", "title": "An emission ends", "statement": "emit() returns or raises after finitely many calls of callbacks, if each callback by itself ends.", "quantifier": "every signal, every set of callbacks and whatever methods of the signal they call", "why_tests_cant": "non-termination is not observable by a test", "anchors": ["src/psygnal/_signal.py:SignalInstance._run_emit_loop_immediate", "src/psygnal/_signal.py:SignalInstance._append_slot"]}
{"id": "C61", "title": "Descriptors that share a group class do not influence each other", "statement": "The signals of a class that uses SignalGroupDescriptor(signal_group_class=G, collect_fields=False, signal_aliases=...) depend only on its own arguments, not on other classes that use the same G.", "quantifier": "every sequence of classes and instances using G", "why_tests_cant": "depends on which classes are used earlier in the process", "anchors": ["src/psygnal/_group_descriptor.py:SignalGroupDescriptor._create_group", "src/psygnal/_group_descriptor.py:SignalGroupDescriptor.__get__"]}
{"id": "C62", "title": "Threads that emit do not block each other for ever", "statement": "When several threads emit, connect and disconnect, and every callback by itself ends, then some thread can always go on.", "quantifier": "every number of threads and signals and every schedule", "why_tests_cant": "needs a particular interleaving of two threads", "anchors": ["src/psygnal/_signal.py:SignalInstance._run_emit_loop", "src/psygnal/_signal.py:SignalInstance.connect"]}
{"id": "C63", "title": "Signals do not keep their object alive", "statement": "Accessing the signals or the signal group of an object does not keep the object alive, and nothing of it is left in the caches when it is gone.", "quantifier": "every history of object creation, access and destruction, every kind of class", "why_tests_cant": "lifetimes depend on the class, leaks are not observed by the results", "anchors": ["src/psygnal/_signal.py:Signal._cache_signal_instance", "src/psygnal/_signal.py:SignalInstance._instance_ref", "src/psygnal/_group_descriptor.py:SignalGroupDescriptor.__get__"]}
{"id": "C64", "title": "emit(check_nargs=True) rejects exactly the wrong numbers of arguments", "statement": "emit(*args, check_nargs=True) on a signal that is not blocked raises TypeError, calls nobody and changes nothing iff the signature of the signal cannot be called with args; otherwise it does what emit(*args) does.", "quantifier": "every signature Python allows, every arguments, every state of the signal", "why_tests_cant": "all signatures with defaults, *args and keyword-only parameters", "anchors": ["src/psygnal/_signal.py:SignalInstance.emit"]}
{"id": "C65", "title": "emit(check_types=True) rejects exactly the values of a wrong type", "statement": "emit(*args, check_types=True) raises TypeError and calls nobody iff a value is not an instance of the type declared at its position (a parameter without type takes every value); otherwise it does what emit(*args) does.", "quantifier": "every signature and every arguments", "why_tests_cant": "all combinations of declared and actual types", "anchors": ["src/psygnal/_signal.py:SignalInstance.emit", "src/psygnal/_signal.py:_parameter_types_match", "src/psygnal/_signal.py:_is_subclass"]}
{"id": "C66", "title": "connect(check_types=True) accepts exactly the callbacks that can take the declared types", "statement": "A callback connected with check_types=True is never passed a value outside its annotation by an emission that checks types, and a callback whose annotations allow all values of the declared types is accepted; a refused callback raises ValueError and changes nothing.", "quantifier": "every pair of signatures", "why_tests_cant": "all combinations of annotations, superclasses and unions", "anchors": ["src/psygnal/_signal.py:SignalInstance.connect", "src/psygnal/_signal.py:_parameter_types_match", "src/psygnal/_signal.py:_is_subclass"]}
{"id": "C67", "title": "connect_direct connects to every signal of a group or to none", "statement": "After group.connect_direct(slot) every signal of the group has exactly one more connection (or already had it, with unique=True), no other signal changes; if it raises, nothing changes.", "quantifier": "every group, every slot and options", "why_tests_cant": "groups whose signals have different signatures", "anchors": ["src/psygnal/_group.py:SignalRelay.connect_direct"]}
{"id": "C68", "title": "group.block() blocks exactly the signals that are not excluded", "statement": "After group.block(exclude) the group and every signal of it that is not in exclude, neither by name nor itself, is blocked; no other signal changes and no connection changes.", "quantifier": "every group, exclusion list and state of the signals", "why_tests_cant": "all exclusion lists and states", "anchors": ["src/psygnal/_group.py:SignalRelay.block"]}
{"id": "C69", "title": "A blocked group tells its listeners nothing", "statement": "While a group is blocked its listeners are not called.", "quantifier": "every group, exclusion list, and emission of a member", "why_tests_cant": "combines exclusions with group listeners", "anchors": ["src/psygnal/_group.py:SignalRelay.block", "src/psygnal/_group.py:SignalRelay._slot_relay"]}
{"id": "C70", "title": "EventedSet reads like the builtin set", "statement": "copy, difference, intersection, symmetric_difference, union, issubset, issuperset, isdisjoint, the operators &, |, -, ^, the comparisons, in and len give what the builtin set gives for the same elements and arguments; the set does not change and nothing is emitted.", "quantifier": "every set, every arguments (lists, iterators, sets, the set itself), every hash/equality that is an equivalence", "why_tests_cant": "all kinds of iterables for every operation", "anchors": ["src/psygnal/containers/_evented_set.py:_BaseMutableSet.difference", "src/psygnal/containers/_evented_set.py:_BaseMutableSet.intersection", "src/psygnal/containers/_evented_set.py:_BaseMutableSet.symmetric_difference", "src/psygnal/containers/_evented_set.py:_BaseMutableSet.union", "src/psygnal/containers/_evented_set.py:_BaseMutableSet.issubset"]}
{"id": "C71", "title": "Results of operations on ordered sets keep the order of the set", "statement": "In the OrderedSet that an operation on an OrderedSet gives, the elements that come from the set are in the order of the set, followed by the new ones in the order of the arguments.", "quantifier": "every ordered set and every arguments", "why_tests_cant": "all orders and arguments with repetitions", "anchors": ["src/psygnal/containers/_evented_set.py:_BaseMutableSet.symmetric_difference", "src/psygnal/containers/_evented_set.py:_BaseMutableSet.union", "src/psygnal/containers/_evented_set.py:OrderedSet"]}
{"id": "C72", "title": "A signal group is a mapping of its signals, which are also its attributes", "statement": "list(group) gives the name of every signal of the class and its bases once, len and in agree with it; group[name] is always the same SignalInstance, made for that signal, a different one for each name; group.name is group[name] if the name is not reserved; unknown names raise KeyError.", "quantifier": "every class made by any number of class statements, every sequence of attribute accesses", "why_tests_cant": "all combinations of inheritance, redefinition, explicit names and accesses", "anchors": ["src/psygnal/_group.py:SignalGroup.__init__", "src/psygnal/_group.py:SignalGroup.__getitem__", "src/psygnal/_group.py:SignalGroup.__iter__", "src/psygnal/_signal.py:Signal.__get__"]}
{"id": "C73", "title": "Group classes can be subclassed", "statement": "A class statement with a group class as base, without attributes starting with _psygnal, succeeds if it is not strict; without new attributes it has the same signals and attributes as the base.", "quantifier": "every group class made by class statements, every set of new attributes", "why_tests_cant": "all hierarchies and reserved names", "anchors": ["src/psygnal/_group.py:SignalGroup.__init_subclass__"]}
{"id": "C74", "title": "An EventedModel has a signal for everything that can be assigned", "statement": "The events of a model class are: one for each field that is not frozen, and, if property setters are allowed, one for each property with a setter, inherited ones included; with the reemission mode of the configuration.", "quantifier": "every sequence of class statements, fields, properties and configurations", "why_tests_cant": "all combinations of inheritance and configuration", "anchors": ["src/psygnal/_evented_model.py:EventedMetaclass.__new__"]}
{"id": "C75", "title": "Dependents of model fields", "statement": "The dependents of a field are exactly those declared in field_dependencies and, if asked for, those guessed from the getters; each of them has a signal, so that assigning to the field does not fail.", "quantifier": "every class statement, configuration and instance", "why_tests_cant": "all combinations of inheritance, frozen fields and configuration", "anchors": ["src/psygnal/_evented_model.py:_get_field_dependents", "src/psygnal/_evented_model.py:EventedModel._setattr_impl"]}
{"id": "C76", "title": "Assigning to a property of a model uses the setter Python finds", "statement": "With allow_property_setters, assigning to a name that is a property calls the setter of the property that the class has under this name; if it has no setter, the assignment fails.", "quantifier": "every hierarchy of model classes", "why_tests_cant": "all ways to redefine a property", "anchors": ["src/psygnal/_evented_model.py:EventedMetaclass.__new__", "src/psygnal/_evented_model.py:EventedModel._super_setattr_"]}
{"id": "C77", "title": "reset() gives the model the values of a new one", "statement": "After m.reset(), m is equal to a newly created model of its class, nested models included; fields that are frozen keep their values; nothing is raised.", "quantifier": "every class description, every tree of models of any depth", "why_tests_cant": "all combinations of kinds of defaults and nesting", "anchors": ["src/psygnal/_evented_model.py:EventedModel.reset", "src/psygnal/_evented_model.py:_get_defaults"]}
{"id": "C78", "title": "update() makes a model equal to another, or sets the fields named in a dict", "statement": "After m.update(other) with a model of the same class, m is equal to other, nested models included; m.update(values, recurse=False) with a dict sets exactly the fields in it, up to the first that m does not have or that is frozen, where it raises.", "quantifier": "every class description, every two trees of models of any depth, every dict", "why_tests_cant": "all combinations of nesting and keys", "anchors": ["src/psygnal/_evented_model.py:EventedModel.update"]}
{"id": "C79", "title": "Reading an EventedList is reading a list", "statement": "l[i], slices, iteration, reversed, len, in, index, count, ==, copy and + of an EventedList give the items (exceptions) that a list with the same items gives.", "quantifier": "every list, every index, slice, value and other operand, every == of items", "why_tests_cant": "all indexes, bounds and slices on all lists, with lists as items", "anchors": ["src/psygnal/containers/_evented_list.py:EventedList.__getitem__", "src/psygnal/containers/_evented_list.py:EventedList.copy", "src/psygnal/containers/_evented_list.py:EventedList.__add__", "src/psygnal/containers/_evented_list.py:EventedList.__radd__", "src/psygnal/containers/_evented_list.py:EventedList.__eq__"]}
{"id": "C80", "title": "Settings, equality and hashes of EventedLists", "statement": "Copies, slices and sums of an EventedList have its hashable and child_events settings; == is an equivalence if that of the items is; lists that are equal and hashable have the same hash, hash() of the others raises TypeError.", "quantifier": "every EventedList and settings", "why_tests_cant": "all settings and contents", "anchors": ["src/psygnal/containers/_evented_list.py:EventedList.__init__", "src/psygnal/containers/_evented_list.py:EventedList.__hash__", "src/psygnal/containers/_evented_list.py:EventedList.__eq__", "src/psygnal/containers/_evented_list.py:EventedList.copy"]}
{"id": "C81", "title": "Reading an EventedDict is reading a dict", "statement": "d[k], get, in, len, iteration, items, values, membership in them and == of an EventedDict are those of a dict with the same entries; copy() has the same entries in the same order and the same basetype.", "quantifier": "every dict, every equivalence of keys, every == of values, every key and other dict", "why_tests_cant": "all dicts and keys with arbitrary equality", "anchors": ["src/psygnal/containers/_evented_dict.py:TypedMutableMapping.__getitem__", "src/psygnal/containers/_evented_dict.py:TypedMutableMapping.copy", "src/psygnal/containers/_evented_dict.py:TypedMutableMapping.__newlike__"]}
{"id": "C82", "title": "Equality of EventedModels", "statement": "m == other is True for two models iff every field has equal values in both; it is an equivalence if == of the values is; with a dict, iff it equals model_dump().", "quantifier": "every table of operators, any values and comparisons, any classes", "why_tests_cant": "all combinations of classes, operators and raising comparisons", "anchors": ["src/psygnal/_evented_model.py:EventedModel.__eq__", "src/psygnal/_group_descriptor.py:_check_field_equality"]}
{"id": "C83", "title": "Assigning to a field of an evented object emits its signal once, in every class hierarchy", "statement": "When the events of an object have been read, each assignment to a field that gives it another value emits the signal of the field exactly once, in every group the object has, whichever of its classes are evented, define __setattr__, or have instances whose events were read, and in whatever order; apart from this, assignments do what they do without psygnal.", "quantifier": "every hierarchy and __mro__, every history of reading groups and of assignments", "why_tests_cant": "all orders in which classes are patched", "anchors": ["src/psygnal/_group_descriptor.py:SignalGroupDescriptor._do_patch_setattr", "src/psygnal/_group_descriptor.py:evented_setattr", "src/psygnal/_group_descriptor.py:SignalGroupDescriptor.__get__"]}
{"id": "C84", "title": "emit_queued in several threads", "statement": "Whatever the threads do and however they are interrupted: each call queued for a thread is made exactly once, in the order of queueing; when emit_queued returns, all calls queued by then have been made or are being made; emit_queued does not wait.", "quantifier": "every number of threads, every interleaving of emissions, emit_queued calls (nested, for any thread) and callbacks", "why_tests_cant": "all interleavings", "anchors": ["src/psygnal/_queue.py:QueuedCallback.cb", "src/psygnal/_queue.py:emit_queued"]}
{"id": "C85", "title": "Reporting a callback's exception does not replace it", "statement": "Building the EmitLoopError (or RecursionError) for a callback's exception never fails: whatever the exception, the emitting object, the arguments and the local variables are, what leaves emit() is the EmitLoopError with the callback's exception as its cause.", "quantifier": "every exception, object, argument list and stack, with any outcome of str(), repr() and bool()", "why_tests_cant": "all user classes with raising special methods", "anchors": ["src/psygnal/_exceptions.py:EmitLoopError.__init__", "src/psygnal/_exceptions.py:_build_psygnal_exception_msg", "src/psygnal/_signal.py:SignalInstance._run_emit_loop"]}
{"id": "C86", "title": "What an EmitLoopError says", "statement": "The message names the signal with its class and module, the exception with its text, the nesting depth, the first frame outside psygnal that led to the emission, the frame that raised and the number of frames between it and the callback, and the local variables there except self and cls; with PSYGNAL_HIDE_LOCALS set it does not depend on the local variables.", "quantifier": "every stack, traceback, set of local variables and environment", "why_tests_cant": "all stacks and paths", "anchors": ["src/psygnal/_exceptions.py:_build_psygnal_exception_msg", "src/psygnal/_exceptions.py:_fmt_frame", "src/psygnal/_exceptions.py:_fmt_locals"]}
{"id": "C87", "title": "Fields are compared with the operator given for them", "statement": "The operator that decides whether an assignment changes a field is the one given in equality_operators, else the one in the class's __eq_operators__, else the default for the type of the field; it stays the same, whatever other classes are made and whatever is compared.", "quantifier": "every class hierarchy, every history of declarations, groups built and comparisons, every outcome of the operators", "why_tests_cant": "all histories and hierarchies", "anchors": ["src/psygnal/_group_descriptor.py:_get_eq_operator_map", "src/psygnal/_group_descriptor.py:_check_field_equality", "src/psygnal/_group_descriptor.py:_build_dataclass_signal_group"]}
{"id": "C88", "title": "A WeakCallback can be connected like the callable it stands for", "statement": "A WeakCallback (as returned by connect_setattr, or made by weak_callback) can be connected to any signal, with the checks and priority of any callable; it is called like it, and the connection ends when its object dies, so that later emissions do not raise.", "quantifier": "every history of connections, disconnections and deaths, any signals, priorities and signatures", "why_tests_cant": "all histories over several signals that share WeakCallbacks", "anchors": ["src/psygnal/_weak_callback.py:weak_callback", "src/psygnal/_signal.py:SignalInstance.connect", "src/psygnal/_signal.py:SignalInstance._try_discard"]}
{"id": "C89", "title": "Every field of a class gets a signal", "statement": "An evented class has a signal for each of its fields, inherited ones included, as its library defines them: for dataclasses, exactly the names that the nearest decorated class among its bases annotates as an ordinary field (no ClassVar, no InitVar), with the type given there, once each and in the order of their first declaration; for pydantic the fields that are not frozen; for attrs and msgspec all fields.", "quantifier": "every module of class statements, with and without @dataclass, redeclaring fields in any way; every class of another library", "why_tests_cant": "all class hierarchies", "anchors": ["src/psygnal/_dataclass_utils.py:iter_fields", "src/psygnal/_group_descriptor.py:_build_dataclass_signal_group"]}
{"id": "C90", "title": "The names of the fields of an EventedModel do not matter", "statement": "Whatever a field of an EventedModel is called, assigning a new value to it stores the value and emits it through the field's signal, as for any other name, and the assignment does nothing else to the group of signals.", "quantifier": "every class, field name, value and state, with any listeners", "why_tests_cant": "all field names, including those that are attributes of SignalGroup", "anchors": ["src/psygnal/_evented_model.py:EventedModel._setattr_no_dependants", "src/psygnal/_evented_model.py:EventedModel._check_if_values_changed_and_emit_if_needed", "src/psygnal/_group.py:SignalGroup.__init_subclass__"]}
{"id": "C91", "title": "A Selection announces its active and its current item", "statement": "events.active and events._current are emitted when, and only when, an operation changes the active or the current item, once, with its new value: a listener that keeps the last value it got always has the attribute's value. Assigning active makes the item the only selected one and the current one; clear() also sets the current item to None, unless keep_current is given.", "quantifier": "every history of operations, also failed ones, every parent, any listeners that do not use the selection", "why_tests_cant": "the setters of active and of the selection call each other, for each item of a bulk operation", "anchors": ["src/psygnal/containers/_selection.py:Selection.active", "src/psygnal/containers/_selection.py:Selection._current", "src/psygnal/containers/_selection.py:Selection._update_active", "src/psygnal/containers/_selection.py:Selection.clear"]}
{"id": "C92", "title": "select_next moves the selection", "statement": "select_next(step) on a SelectableEventedList selects the item step positions from the current one (with wraparound, around; otherwise at most the last or first), which becomes the active and current item and, unless expand_selection is given, the only selected one; with nothing selected it starts at an end. It does not change the list, and does not fail.", "quantifier": "every list, selection, step and flags, any listeners that do not use the list", "why_tests_cant": "all lists, positions and steps", "anchors": ["src/psygnal/containers/_selectable_evented_list.py:SelectableEventedList.select_next", "src/psygnal/containers/_selectable_evented_list.py:SelectableEventedList.select_previous"]}
{"id": "C93", "title": "remove_selected removes what is selected", "statement": "remove_selected() returns the selected items, removes each of them from the list, keeps all others in order, and selects the item before the last one removed; with nothing selected it does nothing.", "quantifier": "every list and selection, any listeners that do not use the list", "why_tests_cant": "all lists and selections; each removal changes the selection that is being removed", "anchors": ["src/psygnal/containers/_selectable_evented_list.py:SelectableEventedList.remove_selected"]}
{"id": "C94", "title": "Qt timers make the queued calls", "statement": "After start_emitting_from_queue(msec, type, thread) the thread has exactly one active QTimer, with that interval and type, until stop_emitting_from_queue for it; each of its timeouts makes, in that thread, all calls waiting for the thread in order. Starting again only changes interval and type; other threads' timers are not touched.", "quantifier": "every number of threads and every sequence of starts, stops, timeouts and emissions in them", "why_tests_cant": "all interleavings of threads; needs a running Qt event loop in each", "anchors": ["src/psygnal/qt.py:start_emitting_from_queue", "src/psygnal/qt.py:stop_emitting_from_queue", "src/psygnal/_queue.py:emit_queued"]}
{"id": "C95", "title": "Qt signals are called with the arguments they take", "statement": "A Qt signal of PyQt or PySide (or its emit method) that is connected as a callback, with check_nargs on, is accepted if and only if it takes no more arguments than the psygnal signal declares; it is then called with just as many arguments as it takes. Connecting a callback does not emit any signal.", "quantifier": "every Qt signal (name and types), psygnal signal and options of connect", "why_tests_cant": "needs both Qt libraries and the compiled psygnal; the signature is read from texts and from an error message", "anchors": ["src/psygnal/_signal.py:_guess_qtsignal_signature", "src/psygnal/_signal.py:_ridiculously_call_emit", "src/psygnal/_signal.py:_acceptable_posarg_range", "src/psygnal/_signal.py:_get_signature_possibly_qt"]}
{"id": "C96", "title": "recompile undoes decompile", "statement": "decompile() moves the contents of each compiled module to its backup, so that no compiled module is left, and touches no other file; recompile() after it restores every file. Neither loses a file's contents.", "quantifier": "every set of files, in whatever order they are found", "why_tests_cant": "all sets of files, including leftovers of earlier calls", "anchors": ["src/psygnal/utils.py:decompile", "src/psygnal/utils.py:recompile"]}
{"id": "C97", "title": "Indices and slices of an EventedList are Python's", "statement": "l[s], l[s] = xs and del l[s] read, replace and remove just the items at the positions that Python's slice s means, in the slice's order (a section for step 1, item by item otherwise), and keep all others; l[i] = v, insert, pop and del work at the position i, counted from the end if negative. Step 0 and wrong numbers of values give ValueError, positions outside IndexError, and nothing changes.", "quantifier": "every list, index, slice (all starts, stops and steps, present or absent) and values, any listeners that do not use the list", "why_tests_cant": "all combinations of bounds, signs and steps; the events are computed from the slice as well", "anchors": ["src/psygnal/containers/_evented_list.py:EventedList.__getitem__", "src/psygnal/containers/_evented_list.py:EventedList.__setitem__", "src/psygnal/containers/_evented_list.py:EventedList.__delitem__", "src/psygnal/containers/_evented_list.py:EventedList._delitem_indices", "src/psygnal/containers/_evented_list.py:EventedList.insert"]}
{"id": "C98", "title": "Containers stay consistent when their listeners use them", "statement": "Whatever the listeners of an EventedDict do with it while it is being changed (set, delete, pop, clear, update, also in nested events), its values remain of its base types and its keys distinct; the elements of an EventedSet remain distinct.", "quantifier": "every program and every listeners that use the container only through its methods, nested to any depth, with exceptions", "why_tests_cant": "all nestings of events, listeners and operations", "anchors": ["src/psygnal/containers/_evented_dict.py:EventedDict.__setitem__", "src/psygnal/containers/_evented_dict.py:EventedDict.__delitem__", "src/psygnal/containers/_evented_dict.py:TypedMutableMapping._type_check", "src/psygnal/containers/_evented_set.py:_BaseMutableSet.add", "src/psygnal/containers/_evented_set.py:_BaseMutableSet.discard"]}
{"id": "C99", "title": "Events of containers are true when they are emitted", "statement": "Also when listeners use the container: when adding(k) is emitted k is not there; when changing(k) or removing(k) is, k is there; when added(k, v) or changed(k, old, v) is, d[k] is v, and v is not old; when removed(k, v) is, k is not there. When items_changed(added, removed) of an EventedSet is emitted, what was added is there, what was removed is not, and not both are empty.", "quantifier": "every program and every listeners that use the container only through its methods, nested to any depth, with exceptions", "why_tests_cant": "all nestings of events, listeners and operations; other listeners may act between an operation's first and last event", "anchors": ["src/psygnal/containers/_evented_dict.py:EventedDict.__setitem__", "src/psygnal/containers/_evented_dict.py:EventedDict.__delitem__", "src/psygnal/containers/_evented_set.py:EventedSet._emit_change"]}
{"id": "C100", "title": "Events of containers tell their history", "statement": "Also when listeners use the container: applying added, changed and removed (items_changed) in the order in which they are emitted to what an EventedDict (EventedSet) was gives its content at each of these events and in the end. No key is added twice without being removed in between; deleting an entry that is there does not raise KeyError; clear() removes everything.", "quantifier": "every program and every listeners that use the container only through its methods, nested to any depth, with exceptions", "why_tests_cant": "all nestings of events, listeners and operations, for instance a listener of adding or removing that acts on the same key", "anchors": ["src/psygnal/containers/_evented_dict.py:EventedDict.__setitem__", "src/psygnal/containers/_evented_dict.py:EventedDict.__delitem__"]}
{"id": "C101", "title": "Each event of an EventedList tells exactly what changed, also when listeners use the list", "statement": "Each event of an EventedList describes exactly the difference between the list when the previous event was emitted and the list when this one is: inserted(i, v) that v was inserted at i and nothing else happened, removed(i, v) that v was at i and was removed, changed(i, old, new) that old was at i and new, another value, took its place (likewise for slices), moved(i, j, v) that v went from i to j; reordered that at most the order changed; inserting, removing and moving that nothing did. After the last event nothing changes any more.", "quantifier": "every program and every listeners that use the list only through its methods, nested to any depth, with exceptions", "why_tests_cant": "all nestings of events, listeners and operations; other listeners may act between an operation's first and last event", "anchors": ["src/psygnal/containers/_evented_list.py:EventedList.insert", "src/psygnal/containers/_evented_list.py:EventedList.__setitem__", "src/psygnal/containers/_evented_list.py:EventedList.__delitem__", "src/psygnal/containers/_evented_list.py:EventedList.move", "src/psygnal/containers/_evented_list.py:EventedList.move_multiple"]}
{"id": "C102", "title": "Operations of an EventedList act on the items they are called for, also when listeners use the list", "statement": "pop() returns the item that it removes, and after clear() the list is empty, also when listeners of removing use the list.", "quantifier": "every program and every listeners that use the list only through its methods, nested to any depth", "why_tests_cant": "all nestings of events, listeners and operations", "anchors": ["src/psygnal/containers/_evented_list.py:EventedList.__delitem__"]}
{"id": "C103", "title": "A Selection stays consistent when its listeners use it", "statement": "Whatever the listeners of a Selection do with it (select, deselect, make active, set the current item, clear, pause, also in nested events): when an operation or a program using it returns normally, the selection has no item twice, all its items are in the parent, and active is the selected item if there is exactly one and None otherwise.", "quantifier": "every program and every listeners that use the selection only through its methods and do not catch exceptions, nested to any depth; programs that return normally", "why_tests_cant": "all nestings of events, listeners and operations; _update_active and the active setter call each other while listeners change the selection", "anchors": ["src/psygnal/containers/_selection.py:Selection.active", "src/psygnal/containers/_selection.py:Selection._update_active", "src/psygnal/containers/_selection.py:Selection._emit_change", "src/psygnal/containers/_selection.py:Selection.select_only", "src/psygnal/containers/_selection.py:Selection.clear"]}
{"id": "C104", "title": "The last events of a Selection are right when its listeners use it", "statement": "When a program returns normally, the last event of active carried the active item, and the current item is the one that was made active last.", "quantifier": "every program and every listeners that use the selection only through its methods and do not catch exceptions, nested to any depth", "why_tests_cant": "all nestings of events, listeners and operations", "anchors": ["src/psygnal/containers/_selection.py:Selection.active", "src/psygnal/containers/_selection.py:Selection._update_active"]}
{"id": "C105", "title": "The last value announced of each attribute of a model is its value, also when listeners assign to the model", "statement": "Whatever the listeners of an EventedModel assign to it while its events are emitted (fields, properties with setters, update(), also in nested events): when the program returns normally, the last value emitted of each attribute, or the value at the beginning if none was, is its value, also for dependent properties, and the model remembers no changes that are still to be announced.", "quantifier": "every model class, every program and every listeners that use the model by assignments and update(), disconnect nothing and do not catch exceptions, nested to any depth; programs that return normally", "why_tests_cant": "all nestings of events, listeners and assignments; the model collects changes and announces them later, while listeners make others", "anchors": ["src/psygnal/_evented_model.py:EventedModel.__setattr__", "src/psygnal/_evented_model.py:EventedModel._setattr_impl", "src/psygnal/_evented_model.py:EventedModel._check_if_values_changed_and_emit_if_needed", "src/psygnal/_evented_model.py:EventedModel.update"]}
{"id": "C106", "title": "A value is announced while the attribute has it", "statement": "Whenever a signal of an EventedModel is emitted, the attribute has the value that is emitted, also when listeners assign to the model.", "quantifier": "every model class, every program and every listeners that use the model by assignments and update(), nested to any depth", "why_tests_cant": "all nestings of events, listeners and assignments", "anchors": ["src/psygnal/_evented_model.py:EventedModel._check_if_values_changed_and_emit_if_needed", "src/psygnal/_evented_model.py:EventedModel._setattr_no_dependants"]}
{"id": "C107", "title": "The selection of a SelectableEventedList stays consistent when listeners use the list", "statement": "Whatever the listeners of a SelectableEventedList and of its selection do with both (insert, delete, pop, remove, move, select, deselect, select_next, remove_selected, also in nested events): when an operation or a program using it returns normally, the selected items are items of the list, none is selected twice, and active is the selected item if there is exactly one and None otherwise.", "quantifier": "every program and every listeners that use the list and the selection only through these methods and do not catch exceptions, nested to any depth; programs that return normally", "why_tests_cant": "all nestings of events, listeners and operations; items are removed from the list before they are removed from the selection", "anchors": ["src/psygnal/containers/_selectable_evented_list.py:SelectableEventedList._on_item_removed", "src/psygnal/containers/_selectable_evented_list.py:SelectableEventedList.insert", "src/psygnal/containers/_selectable_evented_list.py:SelectableEventedList.remove_selected", "src/psygnal/containers/_selection.py:Selection._update_active", "src/psygnal/containers/_selection.py:Selection.active"]}
{"id": "C108", "title": "A new container holds what it is given", "statement": "EventedDict(data, **kwargs) holds what dict(data, **kwargs) holds, in the same order, or raises TypeError if a value is not of one of the base types; EventedList, EventedSet and EventedOrderedSet hold the items given; Selection(data, parent) has the data selected and the right active item, or raises ValueError for items outside the parent; SelectableEventedList(data) holds the data and has its last item selected and active. No callback of any object is called by this, although the constructors emit signals.", "quantifier": "all data, keyword arguments, base types and parents; every state of the rest of the program", "why_tests_cant": "arbitrary data with repeated keys and items, items that are None, and wrong types at any position", "anchors": ["src/psygnal/containers/_evented_dict.py:EventedDict.__init__", "src/psygnal/containers/_evented_dict.py:TypedMutableMapping.__init__", "src/psygnal/containers/_evented_list.py:EventedList.__init__", "src/psygnal/containers/_evented_set.py:OrderedSet.__init__", "src/psygnal/containers/_evented_set.py:EventedSet.__init__", "src/psygnal/containers/_selection.py:Selection.__init__", "src/psygnal/containers/_selection.py:Selectable.__init__", "src/psygnal/containers/_selectable_evented_list.py:SelectableEventedList.__init__"]}
{"id": "C109", "title": "enums_as_values is a temporary setting", "statement": "While a use of enums_as_values(b) runs, the setting of its model class is b (of the innermost use, if several run); when no use runs any more, the configuration of the class is exactly what it would be without the uses, also when their bodies raise or assign other entries. Classes do not influence each other. enums_as_values raises nothing itself.", "quantifier": "all configurations and all interleavings of uses (with statements, generators, threads, tasks) and assignments; nested uses for each class", "why_tests_cant": "all interleavings of uses of any number of classes", "anchors": ["src/psygnal/_evented_model.py:EventedModel.enums_as_values"]}
{"id": "C110", "title": "A signal is what was declared", "statement": "The instances of Signal(*types, name, check_nargs_on_connect, check_types_on_connect, reemission) have the given name (or that of the class attribute), these options, one parameter for each type, in order, and accept exactly as many arguments; with a Signature, they have that one. They have the reemission mode that the argument names, in upper or lower case; any other argument is rejected with ValueError when the signal is declared.", "quantifier": "all types, signatures, names, options and strings", "why_tests_cant": "all strings as mode and all numbers of types and arguments", "anchors": ["src/psygnal/_signal.py:Signal.__init__", "src/psygnal/_signal.py:ReemissionMode.validate", "src/psygnal/_signal.py:_build_signature", "src/psygnal/_signal.py:Signal._create_signal_instance", "src/psygnal/_signal.py:SignalInstance.__init__"]}
{"id": "C111", "title": "evented makes a class evented under its namespace", "statement": "After evented(events_namespace=n) on a class, or a class statement with a SignalGroupDescriptor called n, is_evented is true of the class and of the classes derived from it, get_evented_namespace is n, unless a class in between declares another, and the attribute n is the descriptor, which knows its name. Nothing else of any class changes. Frozen classes, and those with fields that start with _psygnal, are rejected with TypeError.", "quantifier": "all programs of class statements, decorators and assignments of attributes, all hierarchies with several bases", "why_tests_cant": "all hierarchies of classes and orders of declarations", "anchors": ["src/psygnal/_evented_decorator.py:evented", "src/psygnal/_group_descriptor.py:is_evented", "src/psygnal/_group_descriptor.py:get_evented_namespace", "src/psygnal/_group_descriptor.py:SignalGroupDescriptor.__set_name__"]}
{"id": "C112", "title": "A throttled or debounced callback stays connected", "statement": "After signal.connect(throttled(f)) or signal.connect(debounced(f)), as in their documentation, f is called for the emissions that follow: when the timer next fires, the last call made was with the arguments of the last emission. f is called with no other arguments, not while the timer runs, and at most once for each emission.", "quantifier": "both wrappers, leading or not, every history of connections, emissions, timers, and of the references to the wrapper", "why_tests_cant": "all interleavings of emissions, timers, garbage collection and the end of references", "anchors": ["src/psygnal/_throttler.py:throttled", "src/psygnal/_throttler.py:debounced", "src/psygnal/_throttler.py:_ThrottlerBase._start_timer", "src/psygnal/_weak_callback.py:weak_callback", "src/psygnal/_weak_callback.py:WeakFunction", "src/psygnal/_signal.py:SignalInstance.connect"]}
{"id": "C113", "title": "Fields bound to each other agree", "statement": "If fields of evented dataclass objects are bound by a.events.x.connect_setattr(b, 'y') in any way, also in cycles: an assignment ends; the fields bound to one that emitted have the new value; no other field changes; each signal emits at most once, with the new and the old value, exactly if it has listeners and its value changed. Fields bound to each other in both directions that are equal stay equal.", "quantifier": "every graph of bindings, every values, every equality operators, every assignment", "why_tests_cant": "all graphs with cycles, and all values", "anchors": ["src/psygnal/_group_descriptor.py:_DataclassFieldSignalInstance.connect_setattr", "src/psygnal/_group_descriptor.py:_changes_emitted.__exit__", "src/psygnal/_group_descriptor.py:evented_setattr", "src/psygnal/_group_descriptor.py:_check_field_equality", "src/psygnal/_weak_callback.py:WeakSetattr.cb", "src/psygnal/_signal.py:SignalInstance.connect_setattr"]}
{"id": "C114", "title": "Suppressing EmitLoopError lets the other callbacks run", "statement": "As the documentation says (docs/usage.md, Exceptions in Callbacks): when a signal is emitted under contextlib.suppress(EmitLoopError), exceptions of callbacks are ignored and all other connected callbacks are still called.", "quantifier": "every program, every connected callbacks, every arguments, every callback that raises", "why_tests_cant": "the documented use is not tested; it depends on the order of the callbacks", "anchors": ["src/psygnal/_signal.py:SignalInstance.emit", "src/psygnal/_signal.py:SignalInstance._run_emit_loop", "src/psygnal/_signal.py:SignalInstance._run_emit_loop_immediate"]}
{"id": "C115", "title": "Signal.sender is the object whose signal called the callback", "statement": "Inside a callback, Signal.sender() is the object that owns the signal that was emitted, as long as that object exists, also after nested emissions; outside all emissions it is None. This includes callbacks connected with thread=... .", "quantifier": "every nesting of emissions and exceptions, every object, every thread a callback is connected for", "why_tests_cant": "must hold for all nestings; queued callbacks run outside of the emission", "anchors": ["src/psygnal/_signal.py:Signal.sender", "src/psygnal/_signal.py:Signal._emitting", "src/psygnal/_signal.py:SignalInstance.instance", "src/psygnal/_signal.py:SignalInstance._instance_ref", "src/psygnal/_queue.py:QueuedCallback.cb", "src/psygnal/_queue.py:emit_queued"]}
