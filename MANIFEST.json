{
 "claims": [
  {
   "property": "C01",
   "status": "proved",
   "theorems": [
    "C01_order"
   ],
   "note": ""
  },
  {
   "property": "C02",
   "status": "proved",
   "theorems": [
    "C02_exactly_once"
   ],
   "note": ""
  },
  {
   "property": "C03",
   "status": "partial",
   "theorems": [
    "C03_appending_partial",
    "C03_refuted_skipped",
    "C03_refuted_twice"
   ],
   "note": "False of the code: refuted by C03_refuted_skipped and C03_refuted_twice (iteration over the live slot list). Positive part: connecting lowest-priority callbacks during an emission."
  },
  {
   "property": "C04",
   "status": "proved",
   "theorems": [
    "C04_accepts",
    "C04_arguments"
   ],
   "note": ""
  },
  {
   "property": "C05",
   "status": "proved",
   "theorems": [
    "C05_surfaces",
    "C05_surfaces_fast"
   ],
   "note": "Assumes that the report can be built: C85."
  },
  {
   "property": "C06",
   "status": "proved",
   "theorems": [
    "C06_restored",
    "C06_usable"
   ],
   "note": ""
  },
  {
   "property": "C07",
   "status": "proved",
   "theorems": [
    "C07_limit",
    "C07_refuses"
   ],
   "note": ""
  },
  {
   "property": "C08",
   "status": "proved",
   "theorems": [
    "C08_breadth_first",
    "C08_queued"
   ],
   "note": ""
  },
  {
   "property": "C09",
   "status": "proved",
   "theorems": [
    "C09_abandons"
   ],
   "note": ""
  },
  {
   "property": "C10",
   "status": "partial",
   "theorems": [
    "C09_abandons",
    "C10_refuted"
   ],
   "note": "False of the code: refuted by C10_refuted. Positive part: C09_abandons covers every emission that is the deepest so far."
  },
  {
   "property": "C100",
   "status": "partial",
   "theorems": [
    "C100_retold",
    "C100_set",
    "C100_again_refuted",
    "C100_stale_refuted",
    "C100_clear_refuted"
   ],
   "note": "False of the code for dicts: between adding, changing or removing and the change itself a listener may change the same entry; then added comes twice, changed and removed tell stale values, del raises KeyError, and clear() stops at that KeyError. Positive part: applying the events gives the content at each event and in the end, for dicts and sets."
  },
  {
   "property": "C101",
   "status": "proved",
   "theorems": [
    "C101_told"
   ],
   "note": "Listeners and programs are arbitrary clients of the list's methods (and of all signals except emitting the list's own). clear() with any number of rounds; for lists without child_events. Loops over the list itself (l.extend(l), reverse) take their items as they are at the beginning."
  },
  {
   "property": "C102",
   "status": "partial",
   "theorems": [
    "C102_pop_refuted",
    "C102_clear_refuted"
   ],
   "note": "False of the code: the position is fixed before removing is emitted; if a listener inserts or deletes items before it, pop() removes (and removed names) another item than the one returned, and clear() takes the IndexError for the end and leaves items. Positive part: none beyond C33 and C97 (listeners that do not use the list) and C101."
  },
  {
   "property": "C103",
   "status": "proved",
   "theorems": [
    "C103_active"
   ],
   "note": "If nothing raises (listeners do not catch exceptions; with exceptions it is false, C43_listener_refuted). The active setter and _update_active may call each other any number of times. For a Selection on its own, whose parent does not change; in a list: C107."
  },
  {
   "property": "C104",
   "status": "partial",
   "theorems": [
    "C104_told_refuted"
   ],
   "note": "False of the code: the active setter emits active and sets the current item after its listeners may have made another item active; the last event and the current item then are those of the item made active first. Positive part: none beyond C43 (listeners that do not use the selection)."
  },
  {
   "property": "C105",
   "status": "proved",
   "theorems": [
    "C105_told",
    "C105_plain"
   ],
   "note": "If nothing raises (listeners do not catch exceptions, disconnect nothing and do not emit the model's signals themselves), every attribute with a signal has a listener (otherwise values may change unannounced, as in C48_unheard), the operators recognise equal values, and the values of dependent properties follow from the other attributes. Models without dependents: fields whose validators keep the value (otherwise false, C47_refuted)."
  },
  {
   "property": "C106",
   "status": "partial",
   "theorems": [
    "C106_plain",
    "C106_stale_refuted"
   ],
   "note": "False of the code: models with dependents read all values before announcing the first; a listener that assigns another of these attributes is followed by its old value. Positive part: models without dependents (C106_plain), and the last value announced is right (C105_told)."
  },
  {
   "property": "C107",
   "status": "proved",
   "theorems": [
    "C107_consistent"
   ],
   "note": "If nothing raises. All methods except those that replace items (C44 is false for them) and clear() (it catches IndexError, C102_clear_refuted). The program and the listeners do not block, pause, emit or disconnect the list's removed signal, to which the list itself listens (in the model its listener is called in any case, before the others)."
  },
  {
   "property": "C108",
   "status": "proved",
   "theorems": [
    "C108_dict",
    "C108_list",
    "C108_set",
    "C108_selection",
    "C108_selectable",
    "C108_ends"
   ],
   "note": "Without a debug hook (SignalInstance._debug_hook). The items given are lists (iterating over them has no effects). Selections: only None equals None."
  },
  {
   "property": "C109",
   "status": "partial",
   "theorems": [
    "C109_nested",
    "C109_overlap_refuted",
    "C109_any",
    "C109_one",
    "C109_inherited_refuted",
    "C109_shared_refuted"
   ],
   "note": "False of the code: uses of one class that overlap without being nested leave the setting of the first one behind (C109_overlap_refuted); with pydantic 1 classes that share a Config share the setting (C109_shared_refuted), and if one Config inherits from another, nested uses leave a setting behind (C109_inherited_refuted). Positive part: with pydantic 2 nested uses do as they should (C109_nested), any uses raise nothing and touch nothing else (C109_any); with pydantic 1 likewise for each Config class, if they do not inherit the entry (C109_one). Missing: what pydantic does with the setting."
  },
  {
   "property": "C11",
   "status": "proved",
   "theorems": [
    "C11_nested"
   ],
   "note": ""
  },
  {
   "property": "C110",
   "status": "partial",
   "theorems": [
    "C110_declared",
    "C110_signature",
    "C110_modes",
    "C110_late_refuted"
   ],
   "note": "False of the code: a wrong mode is rejected not when the signal is declared, but when it is first accessed, and at each later access (C110_late_refuted). Positive part: everything else, and exactly the wrong modes are rejected then (C110_modes). Strings of ASCII characters."
  },
  {
   "property": "C111",
   "status": "partial",
   "theorems": [
    "C111_namespace",
    "C111_evented",
    "C111_others",
    "C111_rejects",
    "C111_only_type",
    "C111_frozen_refuted",
    "C111_inherited_refuted",
    "C111_hidden_refuted"
   ],
   "note": "False of the code: frozen classes are accepted (C111_frozen_refuted), reserved names among the fields of base classes are not noticed (C111_inherited_refuted), and get_evented_namespace of a derived class may name an attribute that is no group any more (C111_hidden_refuted). Positive part: everything else, for all programs of class statements, decorators and assignments. Missing: classes whose metaclass refuses assignments."
  },
  {
   "property": "C112",
   "status": "partial",
   "theorems": [
    "C112_refuted",
    "C112_lost",
    "C112_held",
    "C112_served",
    "C112_leading",
    "C112_waits",
    "C112_once",
    "C112_only"
   ],
   "note": "False of the code: connected as in the documentation of throttled and debounced, with no variable for the wrapper, the function is never called, since signals refer to such objects weakly (C112_lost, C112_refuted). Positive part: while a variable refers to the wrapper it stays connected and every emission is served, also if it is dropped before the timer fires; there are no calls while the timer runs, and at most one for each emission. Missing: functions that use the wrapper or the signal; several threads and time are in C49-C51."
  },
  {
   "property": "C113",
   "status": "partial",
   "theorems": [
    "C113_bound",
    "C113_mutual",
    "C113_nan_refuted",
    "C113_operators_refuted"
   ],
   "note": "False of the code for values that are not equal to themselves: with nan the assignment does not end but by a recursion limit (C113_nan_refuted); and for fields with different equality operators, which can come to differ (C113_operators_refuted). Positive part: reflexive operators (C113_bound), one equivalence for all fields (C113_mutual), every graph of bindings. Missing: other listeners that assign to the fields, objects that validate or convert what is assigned, recursion limits."
  },
  {
   "property": "C114",
   "status": "partial",
   "theorems": [
    "C114_refuted",
    "C114_up_to"
   ],
   "note": "False of the code: the loop ends at the first exception, so the callbacks after the one that raised are not called, in any mode (C114_refuted). Positive part: exactly the callbacks up to and including the first that raises are called, and the exception is suppressed unless it is a RecursionError or no subclass of Exception (C114_up_to). Missing: the modes queued and latest-only, and callbacks that change the connections."
  },
  {
   "property": "C115",
   "status": "partial",
   "theorems": [
    "C115_sender",
    "C115_none",
    "C115_innermost",
    "C115_thread_refuted"
   ],
   "note": "False of the code for callbacks connected with thread=...: called by emit_queued they see no sender, or the object of whatever other signal is being emitted then (C115_thread_refuted). Positive part: callbacks called by emit (C115_sender), outside all emissions (C115_none), and in all other code the object of the innermost emission that is running (C115_innermost). Missing: emissions in several threads at once, which share the current emitter (C52 covers threads)."
  },
  {
   "property": "C12",
   "status": "proved",
   "theorems": [
    "C12_connect",
    "C12_disconnect",
    "C12_disconnect_all",
    "C12_len",
    "C12_in",
    "C12_roundtrip"
   ],
   "note": ""
  },
  {
   "property": "C13",
   "status": "proved",
   "theorems": [
    "C13_unique",
    "C13_again"
   ],
   "note": ""
  },
  {
   "property": "C14",
   "status": "partial",
   "theorems": [
    "C14_receiver_partial",
    "C14_refuted_partial",
    "C14_refuted_name"
   ],
   "note": "False of the code: refuted by C14_refuted_partial (bound arguments are ignored) and C14_refuted_name (methods are compared by name). Positive part: same function or object, same method name."
  },
  {
   "property": "C15",
   "status": "proved",
   "theorems": [
    "C15_silent"
   ],
   "note": ""
  },
  {
   "property": "C16",
   "status": "proved",
   "theorems": [
    "C16_restored",
    "C16_inside",
    "C16_body"
   ],
   "note": ""
  },
  {
   "property": "C17",
   "status": "partial",
   "theorems": [
    "C17_restored_partial",
    "C17_refuted_nested",
    "C17_refuted_excluded"
   ],
   "note": "False of the code: refuted by C17_refuted_nested (nested statements leave the members blocked) and C17_refuted_excluded (an excluded member that was blocked is unblocked). Positive part: group not blocked before, excluded members not blocked; the body may use blocked() of the members."
  },
  {
   "property": "C18",
   "status": "proved",
   "theorems": [
    "C18_paused",
    "C18_nothing",
    "C18_no_slots",
    "C18_resume",
    "C18_with"
   ],
   "note": ""
  },
  {
   "property": "C19",
   "status": "partial",
   "theorems": [
    "C19_single_partial",
    "C19_refuted"
   ],
   "note": "False of the code: refuted by C19_refuted (a second resume() after a failed one delivers again). Positive part: within one resume() nothing is delivered twice."
  },
  {
   "property": "C20",
   "status": "partial",
   "theorems": [
    "C15_silent",
    "C20_refuted"
   ],
   "note": "False of the code: refuted by C20_refuted (resume() ignores the blocked flag). Positive part: C15_silent, emissions of a blocked signal call nothing."
  },
  {
   "property": "C21",
   "status": "proved",
   "theorems": [
    "C21_weak",
    "C21_alive",
    "C21_exact",
    "C21_never_called"
   ],
   "note": ""
  },
  {
   "property": "C22",
   "status": "proved",
   "theorems": [
    "C22_current",
    "C22_innermost"
   ],
   "note": ""
  },
  {
   "property": "C23",
   "status": "partial",
   "theorems": [
    "C23_linked",
    "C23_told_partial",
    "C23_fast_refuted"
   ],
   "note": "False of the code for emit_fast: refuted by C23_fast_refuted (the relay asks for the current emitter, which emit_fast does not set). Positive part: emit() of a member makes exactly one group emission of EmissionInfo(member, args) to all group callbacks, for every history that leaves the group to manage its links (C23_linked) and callbacks that leave both signals' connections alone."
  },
  {
   "property": "C24",
   "status": "partial",
   "theorems": [
    "C24_one_slot_partial",
    "C24_refuted"
   ],
   "note": "False of the code: refuted by C24_refuted. Positive part: disconnecting one given callback of a member keeps the connection of the group."
  },
  {
   "property": "C25",
   "status": "partial",
   "theorems": [
    "C18_paused",
    "C25_refuted"
   ],
   "note": "False of the code: refuted by C25_refuted (the relay does not look at the paused flag). Positive part: C18_paused also holds for emissions of the group signal itself."
  },
  {
   "property": "C26",
   "status": "partial",
   "theorems": [
    "C26_missing_ok_partial",
    "C26_refuted"
   ],
   "note": "False of the code: refuted by C26_refuted. Positive part: with missing_ok=True."
  },
  {
   "property": "C27",
   "status": "proved",
   "theorems": [
    "C27_setattr",
    "C27_setitem",
    "C27_disconnect_setattr",
    "C27_disconnect_setitem"
   ],
   "note": ""
  },
  {
   "property": "C28",
   "status": "partial",
   "theorems": [
    "C28_emit_fast_partial",
    "C28_fast_emit_partial",
    "C28_group_refuted",
    "C28_hook_refuted"
   ],
   "note": "False of the code for members of groups (C28_group_refuted: the callbacks of the group are not told by emit_fast) and with a debug hook (C28_hook_refuted: emit_fast does not call it). Positive part, without groups and hook: complete equality of events at all nesting levels, of results and of the final state, in both directions."
  },
  {
   "property": "C29",
   "status": "proved",
   "theorems": [
    "C29_fifo",
    "C29_drain"
   ],
   "note": "What is called at once and what is queued is in C01, C02 (due)."
  },
  {
   "property": "C30",
   "status": "partial",
   "theorems": [
    "C30_raises_partial",
    "C30_refuted"
   ],
   "note": "False of the code: refuted by C30_refuted (the option is ignored when the number of arguments is checked). Positive part: it raises when that check is off."
  },
  {
   "property": "C31",
   "status": "partial",
   "theorems": [
    "C31_kept_partial",
    "C31_emits_partial",
    "C31_emits_queued_partial",
    "C31_emits_latest_partial",
    "C31_connect_partial",
    "C31_connect_new_partial",
    "C31_connect_fails",
    "C31_priority_refuted",
    "C31_disconnect_refuted",
    "C31_inside_refuted"
   ],
   "note": "False of the code: unpickled callbacks have no priority attribute (C31_priority_refuted, in general C31_connect_fails), in another process they cannot be disconnected (C31_disconnect_refuted). Positive part: function connections in order, settings, collected emissions; emission of the copy in each mode; connecting without priorities. C31_inside_refuted (copy made during a queued emission) is outside the statement."
  },
  {
   "property": "C32",
   "status": "partial",
   "theorems": [
    "C32_signals",
    "C32_restored",
    "C32_reported_partial",
    "C32_hook_restored",
    "C32_hook_during",
    "C32_hook_reported",
    "C32_leak_refuted",
    "C32_leak_types_refuted",
    "C32_alias_refuted",
    "C32_fast_refuted"
   ],
   "note": "False of the code: report functions stay connected when an attribute getter raises (C32_leak_refuted) or a signal checks types (C32_leak_types_refuted), a signal found under two names reports twice (C32_alias_refuted), emit_fast is not reported globally (C32_fast_refuted). Positive part: otherwise the callbacks, or the global hook, are exactly restored however the body ends, and each emission reports once with all arguments (C32_reported_partial: immediate mode, emission that succeeds)."
  },
  {
   "property": "C33",
   "status": "partial",
   "theorems": [
    "C33_like_list_partial",
    "C33_refuted",
    "C33_pop_refuted"
   ],
   "note": "False of the code: refuted by C33_refuted (del l[-4] on three items deletes the last one) and C33_pop_refuted (popped list items are replaced by wrappers). Positive part: everything except deletion by an index below -len, and pop/remove/pairwise reverse when items are lists."
  },
  {
   "property": "C34",
   "status": "proved",
   "theorems": [
    "C34_events",
    "C34_announced_refuted"
   ],
   "note": "C34_events covers every operation that returns. C34_announced_refuted: an operation that raises IndexError may have emitted `removing`."
  },
  {
   "property": "C35",
   "status": "proved",
   "theorems": [
    "C35_move",
    "C35_negative_refuted"
   ],
   "note": "C35_negative_refuted: negative src, outside the property, is mishandled."
  },
  {
   "property": "C36",
   "status": "partial",
   "theorems": [
    "C36_gathers_partial",
    "C36_slices_partial",
    "C36_zero",
    "C36_refuted",
    "C36_raises_refuted"
   ],
   "note": "False of the code: refuted by C36_refuted and C36_raises_refuted (the plan of moves is wrong for mixed sources). Positive part: descending sources, or ascending sources all before or all behind the destination; sources given as slices (C36_slices_partial), and a slice of step 0 is refused with nothing changed (C36_zero)."
  },
  {
   "property": "C37",
   "status": "proved",
   "theorems": [
    "C37_permutation"
   ],
   "note": "For every way the call ends."
  },
  {
   "property": "C38",
   "status": "partial",
   "theorems": [
    "C38_like_dict_partial",
    "C38_refuted"
   ],
   "note": "False of the code: refuted by C38_refuted (popitem() takes the first item). Positive part: every other operation."
  },
  {
   "property": "C39",
   "status": "proved",
   "theorems": [
    "C39_events",
    "C39_same",
    "C39_announced_refuted"
   ],
   "note": "C39_events covers every operation that returns. C39_announced_refuted: `adding` is emitted before the type check refuses the value."
  },
  {
   "property": "C40",
   "status": "partial",
   "theorems": [
    "C40_like_set_partial",
    "C40_refuted",
    "C40_itself_refuted",
    "C40_no_argument_refuted"
   ],
   "note": "False of the code: symmetric_difference_update([x, x]) leaves x as it was (C40_refuted), difference_update(self) raises RuntimeError (C40_itself_refuted), intersection_update() without argument raises TypeError (C40_no_argument_refuted). Positive part: all other arguments, whatever listeners do short of changing the set."
  },
  {
   "property": "C41",
   "status": "partial",
   "theorems": [
    "C41_announced_partial",
    "C41_refuted",
    "C41_toggled_refuted"
   ],
   "note": "False of the code: |= with two new elements emits twice (C41_refuted), symmetric_difference_update([x, x]) announces a change that did not happen (C41_toggled_refuted). Positive part: every other operation except |=, &=, -=, ^= with an iterable."
  },
  {
   "property": "C42",
   "status": "proved",
   "theorems": [
    "C42_order",
    "C42_again",
    "C42_history"
   ],
   "note": "For OrderedSet and EventedOrderedSet, every history including operations that raise; C42_again: symmetric_difference_update with repeated arguments; listeners may do anything except use the set."
  },
  {
   "property": "C43",
   "status": "partial",
   "theorems": [
    "C43_active_partial",
    "C43_ends_partial",
    "C43_list_partial",
    "C43_refuted",
    "C43_listener_refuted"
   ],
   "note": "False of the code: refuted by C43_refuted (active = x for x not in the parent on an empty selection: ValueError, x stays active) and C43_listener_refuted (a raising listener of items_changed leaves active stale). Positive part: every other history, including operations that fail on their own; for lists (C43_list_partial) those that replace no items (see C44), and clear() with debug hooks that raise no IndexError. Listeners that use the selection or the list: C103, C107."
  },
  {
   "property": "C44",
   "status": "partial",
   "theorems": [
    "C44_subset_partial",
    "C44_refuted"
   ],
   "note": "False of the code: refuted by C44_refuted (a replaced item stays selected). Positive part: every history without item or slice assignment and pairwise reverse, however the operations end."
  },
  {
   "property": "C45",
   "status": "partial",
   "theorems": [
    "C45_class",
    "C45_assigned",
    "C45_announced",
    "C45_exclusive",
    "C45_sticky_refuted",
    "C45_subclass_refuted"
   ],
   "note": "False of the code: refuted by C45_subclass_refuted (subclasses of a fieldless class with an alias function never emit) and, for the equality of the field, by C45_sticky_refuted (one raising comparison replaces the operator of the class). Positive part: every class whose __setattr__ was made with its own aliases; values are compared by the operator in force."
  },
  {
   "property": "C46",
   "status": "proved",
   "theorems": [
    "C46_signals",
    "C46_lookup",
    "C46_reserved"
   ],
   "note": "C46_reserved: building the group raises only for names starting with _psygnal."
  },
  {
   "property": "C47",
   "status": "partial",
   "theorems": [
    "C47_partial",
    "C47_missing_partial",
    "C47_refuted"
   ],
   "note": "False of the code: refuted by C47_refuted (without dependents, the raw value is compared and emitted, not the validated one). Positive part: validators that keep the value; with dependents see C48_announced, where the stored value is emitted."
  },
  {
   "property": "C48",
   "status": "partial",
   "theorems": [
    "C48_clean",
    "C48_announced",
    "C48_unheard",
    "C48_refuted"
   ],
   "note": "False of the code: refuted by C48_refuted (a property getter that raises leaves its name in _primary_changes; every later assignment raises KeyError). Positive part: attributes with signals can be read. C48_clean: whatever listeners do; C48_announced: listeners that may raise but do not assign, all signals have callbacks."
  },
  {
   "property": "C49",
   "status": "partial",
   "theorems": [
    "C49_spaced_partial",
    "C49_refuted",
    "C49_threads_refuted",
    "C49_reentrant_refuted"
   ],
   "note": "False of the code: refuted when the wrapped function raises (C49_refuted), by two threads (C49_threads_refuted), and by a function that uses its own throttler (C49_reentrant_refuted). Positive part: holds when methods are used one at a time and the first call did not raise."
  },
  {
   "property": "C50",
   "status": "partial",
   "theorems": [
    "C50_last_partial",
    "C50_served_partial",
    "C50_pending_partial",
    "C50_first_refuted",
    "C50_cancel_refuted",
    "C50_ending_refuted"
   ],
   "note": "False of the code: a request is lost while the thread of the current timer is ending (after creation, after cancel, after firing with nothing pending). Positive part: when methods are used one at a time and the thread of a timer has ended before the next call, every call is for the last request, and nothing is left pending once idle."
  },
  {
   "property": "C51",
   "status": "partial",
   "theorems": [
    "C51_silence_partial",
    "C51_once_partial",
    "C51_refuted"
   ],
   "note": "False of the code when a request is made while the timer is firing (C51_refuted). Positive part: methods used one at a time."
  },
  {
   "property": "C52",
   "status": "partial",
   "theorems": [
    "C52_exclusive",
    "C52_own",
    "C52_complete",
    "C52_gone_refuted",
    "C52_fast_refuted",
    "C52_limit_refuted"
   ],
   "note": "C52_exclusive is the property as stated, for emit, connect and disconnect; C52_own and C52_complete: each emission is complete whatever other threads do. What other threads can do to an emission nevertheless: a receiver that dies makes it skip a connected slot (C52_gone_refuted), emit_fast makes a latest-only emission call nobody (C52_fast_refuted), deep recursion makes it raise RecursionError (C52_limit_refuted)."
  },
  {
   "property": "C53",
   "status": "partial",
   "theorems": [
    "C53_partial",
    "C53_refuted",
    "C53_stale_refuted"
   ],
   "note": "False of the code: refuted by C53_refuted (another thread's signal is reported) and C53_stale_refuted (stays set for ever). Positive part: no thread emits while another one does."
  },
  {
   "property": "C54",
   "status": "partial",
   "theorems": [
    "C54_same_partial",
    "C54_distinct_partial",
    "C54_name_refuted",
    "C54_copy_refuted"
   ],
   "note": "False of the code: Signal(name=...) with a name other than the attribute gives a new SignalInstance at every access (C54_name_refuted), copy.copy shares it (C54_copy_refuted). Positive part: holds otherwise, with ids being reused."
  },
  {
   "property": "C55",
   "status": "partial",
   "theorems": [
    "C55_partial",
    "C55_own_partial",
    "C55_refuted"
   ],
   "note": "False of the code: refuted by C55_refuted (all descriptors share one cache). Positive part: one descriptor per class, no copy.copy."
  },
  {
   "property": "C56",
   "status": "proved",
   "theorems": [
    "C56_uniform",
    "C56_signals",
    "C56_strict",
    "C56_refused"
   ],
   "note": "For every chain of class statements; the signature is what the code compares, str of the annotations. C56_signals: which signals a class has."
  },
  {
   "property": "C57",
   "status": "partial",
   "theorems": [
    "C57_partial",
    "C57_like_list_partial",
    "C57_events",
    "C57_move",
    "C57_setitem_refuted",
    "C57_index_refuted",
    "C57_instance_refuted",
    "C57_raise_refuted"
   ],
   "note": "False of the code: refuted by C57_setitem_refuted (items put in by assignment are not reported, replaced ones stay connected), C57_instance_refuted (items whose group has no instance, e.g. nested EventedLists), C57_raise_refuted (a listener of inserted raises), C57_index_refuted (the position is that of another, equal item). Positive part: C57_partial, for every history without item assignment, listeners that do not change the list or raise, items that are not builtin lists and whose signals know the item."
  },
  {
   "property": "C58",
   "status": "partial",
   "theorems": [
    "C58_setattr_partial",
    "C58_delattr_partial",
    "C58_setitem_partial",
    "C58_delitem",
    "C58_in_place",
    "C58_call",
    "C58_new_key_refuted",
    "C58_unreadable_refuted",
    "C58_events_refuted",
    "C58_slice_refuted",
    "C58_in_place_refuted"
   ],
   "note": "False of the code: refuted by C58_new_key_refuted (an item with a new key cannot be set: KeyError), C58_unreadable_refuted, C58_events_refuted (the attribute events of the target), C58_slice_refuted (announced without change), C58_in_place_refuted (failed operation announced). Positive part: attributes that can be read without effects, and items that exist; deletion in all cases. wrapt.ObjectProxy is part of the trusted description."
  },
  {
   "property": "C59",
   "status": "partial",
   "theorems": [
    "C59_idle_partial",
    "C59_refuted"
   ],
   "note": "False of the code: refuted by C59_refuted (after an emission started with emit_fast during which emit was called, the next emit calls nobody). Positive part: signals not emitted with emit_fast."
  },
  {
   "property": "C60",
   "status": "partial",
   "theorems": [
    "C60_partial",
    "C60_refuted",
    "C60_resume_refuted",
    "C60_queue_refuted"
   ],
   "note": "False of the code: refuted by C60_refuted (a callback that connects itself again makes emit() run for ever, because the list of callbacks is iterated while it grows) and C60_resume_refuted (a callback that pauses the signal and emits it makes resume() without reducer run for ever), C60_queue_refuted (emit_queued(thread=t) in another thread does not end if a queued callback emits again). Positive part: C60_partial, every program ends if neither it nor a callback connects to the signals it emits, resumes them without reducer, empties queues of other threads, sets the debug hook or calls library methods; without debug hook."
  },
  {
   "property": "C61",
   "status": "partial",
   "theorems": [
    "C61_plain_partial",
    "C61_collect_partial",
    "C61_refuted",
    "C61_collect_refuted"
   ],
   "note": "False of the code: copy.deepcopy of the group class is the class itself, so the aliases are added to the shared class. Positive part: all descriptors agree on the aliases."
  },
  {
   "property": "C62",
   "status": "partial",
   "theorems": [
    "C62_ordered_partial",
    "C62_refuted"
   ],
   "note": "False of the code: two threads that emit two signals from each other's callbacks wait for ever (C62_refuted). Positive part: locks acquired in a fixed order."
  },
  {
   "property": "C63",
   "status": "partial",
   "theorems": [
    "C63_released_partial",
    "C63_kept",
    "C63_refuted"
   ],
   "note": "False of the code for objects that are neither weakly referenceable nor let the signal be stored: they are kept for ever (C63_kept, C63_refuted). Positive part: weakly referenceable objects."
  },
  {
   "property": "C64",
   "status": "proved",
   "theorems": [
    "C64_rejected",
    "C64_accepted"
   ],
   "note": "Signatures that Python allows (well_formed)."
  },
  {
   "property": "C65",
   "status": "partial",
   "theorems": [
    "C65_rejected_partial",
    "C65_accepted_partial",
    "C65_refuted_unannotated"
   ],
   "note": "False of the code: a signal with a parameter without annotation refuses every value (C65_refuted_unannotated). Positive part: parameters declared with classes or unions of classes (Python 3.10 and later)."
  },
  {
   "property": "C66",
   "status": "partial",
   "theorems": [
    "C66_accepts_partial",
    "C66_rejects_partial",
    "C66_any",
    "C66_refuted_unsound",
    "C66_refuted_incomplete"
   ],
   "note": "False of the code, which requires the annotation to be a subclass of the declared type: a callback for a subclass is accepted and gets other values (C66_refuted_unsound), one for a superclass is refused (C66_refuted_incomplete). Positive part: exactly what is compared, refusal is ValueError without effect."
  },
  {
   "property": "C67",
   "status": "partial",
   "theorems": [
    "C67_every_member_partial",
    "C67_refuted_atomic"
   ],
   "note": "False of the code: when connect_direct raises, signals before the failing one are connected (C67_refuted_atomic). Positive part: what holds when it returns."
  },
  {
   "property": "C68",
   "status": "proved",
   "theorems": [
    "C68_blocks"
   ],
   "note": "Names and signals of a group are distinct."
  },
  {
   "property": "C69",
   "status": "partial",
   "theorems": [
    "C69_silent_partial",
    "C69_refuted"
   ],
   "note": "False of the code: emissions of a signal that is exempt from the block reach the listeners of the blocked group (C69_refuted). Positive part: signals that are not exempt."
  },
  {
   "property": "C70",
   "status": "partial",
   "theorems": [
    "C70_like_set_partial",
    "C70_not_sets",
    "C70_iterator_refuted",
    "C70_no_argument_refuted"
   ],
   "note": "False of the code: symmetric_difference() of an iterator keeps the common elements (C70_iterator_refuted), intersection() without arguments raises TypeError (C70_no_argument_refuted). Positive part: everything else; comparisons with sets."
  },
  {
   "property": "C71",
   "status": "partial",
   "theorems": [
    "C71_order_partial",
    "C71_symmetric_refuted",
    "C71_and_refuted"
   ],
   "note": "False of the code: symmetric_difference() puts the new elements first (C71_symmetric_refuted), & is in the order of its right operand (C71_and_refuted). Positive part: copy, difference, intersection, union, |, -, ^."
  },
  {
   "property": "C72",
   "status": "partial",
   "theorems": [
    "C72_mapping",
    "C72_attribute_partial",
    "C72_name_refuted",
    "C72_other_refuted",
    "C72_two_names_refuted"
   ],
   "note": "False of the code: with Signal(name=...) other than the attribute, group.x is a new SignalInstance at every access and not group['x'] (C72_name_refuted) or that of another signal (C72_other_refuted); also for a = b = Signal() (C72_two_names_refuted). Positive part: the mapping always; the attributes if each Signal has its own name and is not redefined as a property."
  },
  {
   "property": "C73",
   "status": "partial",
   "theorems": [
    "C73_subclass_partial",
    "C73_refuted"
   ],
   "note": "False of the code: a subclass of a group with a signal whose name starts with psygnal_ raises AttributeError (C73_refuted). Positive part: other classes; single inheritance."
  },
  {
   "property": "C74",
   "status": "partial",
   "theorems": [
    "C74_events_partial",
    "C74_refused",
    "C74_refuted"
   ],
   "note": "False of the code: a subclass has no signal for the inherited property setters (C74_refuted). Positive part: exactly the fields and the properties in the body of the class, for every configuration."
  },
  {
   "property": "C75",
   "status": "partial",
   "theorems": [
    "C75_dependents",
    "C75_closed_partial",
    "C75_inherited_refuted",
    "C75_frozen_refuted"
   ],
   "note": "False of the code: in a subclass of a model with field_dependencies on a property, every assignment to the field raises KeyError (C75_inherited_refuted); also if the dependent is a frozen field (C75_frozen_refuted). Positive part: the dependents are those declared and guessed; they have signals if the properties are in the body of the class."
  },
  {
   "property": "C76",
   "status": "partial",
   "theorems": [
    "C76_setter_partial",
    "C76_bases",
    "C76_readonly_refuted",
    "C76_diamond_refuted"
   ],
   "note": "False of the code: a property that a subclass makes read-only is still set by the setter of the base (C76_readonly_refuted); with several bases the first one wins, not the __mro__ (C76_diamond_refuted). Positive part: single inheritance, names that are properties with setters throughout; with several bases, what is used (C76_bases)."
  },
  {
   "property": "C77",
   "status": "partial",
   "theorems": [
    "C77_reset_partial",
    "C77_frozen_partial",
    "C77_raises",
    "C77_refuted"
   ],
   "note": "False of the code: reset() sets a field with a default_factory to None (or a dict), a required field to PydanticUndefined, a default Inner(x=5) to Inner(), and raises AttributeError if a nested model was replaced by None (C77_refuted). Positive part: defaults without factories; nested models whose default has the defaults of its class; frozen fields keep their values. Models are trees, assignments are not validated."
  },
  {
   "property": "C78",
   "status": "partial",
   "theorems": [
    "C78_update_partial",
    "C78_flat",
    "C78_type",
    "C78_raises",
    "C78_refuted"
   ],
   "note": "False of the code: update(other, recurse=False) puts dicts in the place of nested models, models in lists become dicts, an unknown key raises after earlier keys were assigned (C78_refuted). Positive part: update(other) of the same class with models only directly in fields; recurse=False with a dict. Models are trees, assignments are not validated."
  },
  {
   "property": "C79",
   "status": "partial",
   "theorems": [
    "C79_items_partial",
    "C79_search",
    "C79_nested_refuted"
   ],
   "note": "False of the code for items that are lists: l[i] and iteration give a new EventedList, so that copy() and + hold other objects than the list (C79_nested_refuted). Positive part: lists without such items; in, index, count and == for all lists (C79_search)."
  },
  {
   "property": "C80",
   "status": "partial",
   "theorems": [
    "C80_partial",
    "C80_settings_refuted",
    "C80_hash_refuted"
   ],
   "note": "False of the code: copies and slices have hashable=True and child_events=False whatever the list has (C80_settings_refuted), equal lists have different hashes (C80_hash_refuted). Positive part: == is an equivalence, which lists have a hash, lists with the default settings."
  },
  {
   "property": "C81",
   "status": "proved",
   "theorems": [
    "C81_like_dict",
    "C81_copy"
   ],
   "note": "Equality of keys is an equivalence; == of values returns a bool."
  },
  {
   "property": "C82",
   "status": "partial",
   "theorems": [
    "C82_fields",
    "C82_equivalence_partial",
    "C82_derived",
    "C82_dict",
    "C82_unrelated_refuted",
    "C82_sticky_refuted"
   ],
   "note": "False of the code: models of unrelated classes can be equal in one direction only, and == is not transitive across classes (C82_unrelated_refuted); a comparison that raises once changes the answers of later ones (C82_sticky_refuted). Positive part: models of one class whose fields are compared without exceptions; a model and one of a derived class; dicts."
  },
  {
   "property": "C83",
   "status": "partial",
   "theorems": [
    "C83_once_partial",
    "C83_stored_partial",
    "C83_only",
    "C83_ends",
    "C83_twice_refuted",
    "C83_implicit_refuted",
    "C83_two_refuted",
    "C83_bypass_refuted"
   ],
   "note": "False of the code: in a class that defines __setattr__ with super(), changes are emitted twice once the group of an instance of its base was read (C83_twice_refuted, C83_implicit_refuted); of two descriptors only the one read first is told (C83_two_refuted); with several bases a __setattr__ that refuses assignments is bypassed (C83_bypass_refuted). Positive part: any hierarchy with one namespace where this does not happen; with single inheritance, assignments store what they would without psygnal; nothing else is ever emitted (C83_only), and assignments end (C83_ends)."
  },
  {
   "property": "C84",
   "status": "partial",
   "theorems": [
    "C84_once",
    "C84_emptied",
    "C84_waits_partial",
    "C84_waits_refuted"
   ],
   "note": "False of the code: of two threads in emit_queued for the same thread, one can wait for ever (C84_waits_refuted). Positive part: every call is made once and in order, and the queue is emptied, in all schedules; nobody waits if each queue is emptied by one thread."
  },
  {
   "property": "C85",
   "status": "partial",
   "theorems": [
    "C85_reported_partial",
    "C85_nothing_else",
    "C85_queued",
    "C85_refuted"
   ],
   "note": "False of the code: an exception whose str() raises, an emitting object whose truth value raises and queued arguments whose repr() raises replace the EmitLoopError by their own exception (C85_refuted). Positive part: if these do not raise; nothing else can replace it."
  },
  {
   "property": "C86",
   "status": "partial",
   "theorems": [
    "C86_names",
    "C86_queue",
    "C86_alone",
    "C86_emitted_partial",
    "C86_occurred",
    "C86_chain_partial",
    "C86_hidden",
    "C86_self",
    "C86_locals",
    "C86_emitted_refuted"
   ],
   "note": "False of the code: a file whose path contains that of the package, such as .../psygnal_tools/a.py, is taken for a part of it, so that the wrong frame is named (C86_emitted_refuted). Positive part: all other paths."
  },
  {
   "property": "C87",
   "status": "partial",
   "theorems": [
    "C87_kept_partial",
    "C87_built",
    "C87_declared",
    "C87_used_partial",
    "C87_declared_refuted",
    "C87_inherited_refuted",
    "C87_sticky_refuted"
   ],
   "note": "False of the code: building the group replaces operators declared in __eq_operators__ by the defaults (C87_declared_refuted), a derived class shares that dict with its base (C87_inherited_refuted), one raising comparison changes the operator for good (C87_sticky_refuted). Positive part: histories without these three; what building and declaring set (C87_built, C87_declared)."
  },
  {
   "property": "C88",
   "status": "partial",
   "theorems": [
    "C88_own_partial",
    "C88_connected",
    "C88_refused",
    "C88_max",
    "C88_foreign_refuted"
   ],
   "note": "False of the code: a WeakCallback connected to a signal other than the one it was made by is not removed when its object dies, so that every emission raises; its signature is not checked, its priority is ignored; connected twice, it is removed once (C88_foreign_refuted). Positive part: WeakCallbacks connected again only to their own signal while they are not in it, in all histories of connections, disconnections and deaths."
  },
  {
   "property": "C89",
   "status": "partial",
   "theorems": [
    "C89_dataclass_partial",
    "C89_libraries",
    "C89_mixed_refuted",
    "C89_inherited_refuted"
   ],
   "note": "False of the code: an attrs (or pydantic, msgspec) class derived from a dataclass gets signals for the dataclass's fields only (C89_mixed_refuted); the types of inherited msgspec fields are lost (C89_inherited_refuted). Positive part: dataclasses with one base each, through @dataclass as CPython defines it; classes of one other library. Missing: several bases, KW_ONLY, what the other libraries compute."
  },
  {
   "property": "C90",
   "status": "partial",
   "theorems": [
    "C90_own_partial",
    "C90_instead_refuted",
    "C90_disconnect_refuted"
   ],
   "note": "False of the code: fields called like an attribute of SignalGroup (all, connect, disconnect, pause, blocked, ...) or psygnal... are announced by calling that attribute: their signal is not emitted, the assignment raises after storing, the relay emits a bare value (C90_instead_refuted), or all listeners of the group are disconnected (C90_disconnect_refuted). Positive part: fields with other names. Missing: fields called block and resume; with dependents see C48_announced."
  },
  {
   "property": "C91",
   "status": "partial",
   "theorems": [
    "C91_told_partial",
    "C91_clear_partial",
    "C91_active_partial",
    "C91_update_refuted",
    "C91_active_refuted"
   ],
   "note": "False of the code: the selection is looked at after each item of a bulk operation, so that selecting two items announces the first as active and then None, and leaves it current (C91_update_refuted); assigning active announces None and then the item twice (C91_active_refuted). Positive part: a listener that keeps the last value always has the attribute's value, each value emitted is the one at that time; what active = v and clear do. Missing: listeners that use the selection or raise."
  },
  {
   "property": "C92",
   "status": "partial",
   "theorems": [
    "C92_next_partial",
    "C92_expand_partial",
    "C92_refuted"
   ],
   "note": "False of the code: the current item of a selection can have been removed from the list while others are still selected; select_next then raises ValueError (C92_refuted). Positive part: on a consistent selection (as it is after the histories of C43_list_partial), the right item becomes active, current and the only selected one (or, expanding, is added and becomes current), the list and the rest stay. Missing: listeners that use the list; items that are lists themselves or None."
  },
  {
   "property": "C93",
   "status": "partial",
   "theorems": [
    "C93_remove_partial",
    "C93_others_partial",
    "C93_refuted"
   ],
   "note": "False of the code: with nothing selected, remove_selected selects the first item (C93_refuted). Positive part: on a consistent selection the selected items are returned, each is taken out of the list, the others stay in order, and the item before the last one removed is selected. Missing: as for C92; which of several equal items is meant (the first is removed)."
  },
  {
   "property": "C94",
   "status": "partial",
   "theorems": [
    "C94_timers_partial",
    "C94_tick_partial",
    "C94_foreign_refuted"
   ],
   "note": "False of the code: with thread given, the timer is created in, and belongs to, the calling thread; it makes that thread's calls, and the thread meant cannot get a timer of its own any more, so that the calls waiting for it are never made (C94_foreign_refuted, whatever Qt does with timers used from other threads). Positive part: everything, if every thread starts and stops only its own timer. Missing: callbacks that start or stop timers; timers are taken to be as Qt documents them."
  },
  {
   "property": "C95",
   "status": "partial",
   "theorems": [
    "C95_text_partial",
    "C95_accepts_partial",
    "C95_arguments_partial",
    "C95_strange",
    "C95_quiet",
    "C95_comma_refuted",
    "C95_compiled_refuted"
   ],
   "note": "False of the code: a type whose name has a comma counts as two arguments (C95_comma_refuted); connecting the emit method of a signal of the compiled psygnal emits that signal with 255 ones, since it is taken for a method of PySide (C95_compiled_refuted). Positive part: names and types without commas, parentheses and blanks; connecting functions, methods and psygnal's own signals calls nothing. Missing: what the objects of PyQt, PySide and the compiled psygnal look like is taken from the comments and tests."
  },
  {
   "property": "C96",
   "status": "partial",
   "theorems": [
    "C96_decompile",
    "C96_roundtrip_partial",
    "C96_refuted"
   ],
   "note": "False of the code: with a backup left from an older build, recompile() overwrites the newer compiled file by it (C96_refuted). Positive part: what decompile() does, for all files; the round trip if there are no backups before. Missing: file systems that refuse to overwrite; files that appear meanwhile."
  },
  {
   "property": "C97",
   "status": "partial",
   "theorems": [
    "C97_get",
    "C97_set",
    "C97_del",
    "C97_index_partial"
   ],
   "note": "Positive part: all slices, read, assigned and deleted, against Python's documentation (SpecSlice.v), and single positions. Missing: del of an index below -len, which deletes another item (C33_refuted), popped items that are lists themselves (C33_pop_refuted); listeners that use the list (for these C101)."
  },
  {
   "property": "C98",
   "status": "proved",
   "theorems": [
    "C98_dict",
    "C98_set"
   ],
   "note": "Listeners and programs are arbitrary clients of the container's methods (and of all signals except emitting the container's own). Simplified: iterating over the set itself while a listener changes it notices changes of size only; this property does not depend on the order."
  },
  {
   "property": "C99",
   "status": "proved",
   "theorems": [
    "C99_dict",
    "C99_set"
   ],
   "note": "Truth when emit is called; a paused or queued emission is delivered later."
  }
 ]
}
