{
 "claims": [
  {
   "property": "C01",
   "status": "proved",
   "theorems": [
    "C01_reverse",
    "C01_reverse_twice"
   ],
   "note": ""
  },
  {
   "property": "C02",
   "status": "proved",
   "theorems": [
    "C02_split",
    "C02_split_panics",
    "C02_flatten_split"
   ],
   "note": ""
  },
  {
   "property": "C03",
   "status": "proved",
   "theorems": [
    "C03_permute"
   ],
   "note": ""
  },
  {
   "property": "C04",
   "status": "proved",
   "theorems": [
    "C04_contains",
    "C04_add_unique",
    "C04_add_unique_from",
    "C04_copy"
   ],
   "note": ""
  },
  {
   "property": "C05",
   "status": "proved",
   "theorems": [
    "C05_set"
   ],
   "note": ""
  },
  {
   "property": "C06",
   "status": "proved",
   "theorems": [
    "C06_ordered_map",
    "C06_keys_distinct"
   ],
   "note": ""
  },
  {
   "property": "C07",
   "status": "proved",
   "theorems": [
    "C07_get"
   ],
   "note": ""
  },
  {
   "property": "C08",
   "status": "proved",
   "theorems": [
    "C08_budget",
    "C08_bookkeeping"
   ],
   "note": "The budget needs non-negative sizes (C08_negative_size shows why); bookkeeping and absence of panics hold for all sizes."
  },
  {
   "property": "C09",
   "status": "partial",
   "theorems": [
    "C09_least_recently_used_refuted",
    "C09_oldest_load_partial",
    "C09_evicts_oldest_reading_partial"
   ],
   "note": "Refuted as stated: a hit updates a copy of the entry, so hits do not refresh it. Proved instead: eviction is in load order, minimal, and every answer of every history is that of a bounded queue."
  },
  {
   "property": "C10",
   "status": "proved",
   "theorems": [
    "C10_invalidate"
   ],
   "note": ""
  },
  {
   "property": "C11",
   "status": "proved",
   "theorems": [
    "C11_mem"
   ],
   "note": ""
  },
  {
   "property": "C12",
   "status": "proved",
   "theorems": [
    "C12_no_panic",
    "C12_hit",
    "C12_one_fetch_at_a_time",
    "C12_entry_key"
   ],
   "note": ""
  },
  {
   "property": "C13",
   "status": "partial",
   "theorems": [
    "C13_single_fetch_refuted",
    "C13_at_most_two_fetches_partial",
    "C13_single_fetch_if_maker_first_partial",
    "C13_fetch_only_if_needed_partial"
   ],
   "note": "Refuted as stated: the call that finds a fresh entry may lock it before the call that made it, and both fetch. Proved instead: at most two fetches per entry while results live, one if the maker is first, and a fetch only when needed or by the maker."
  },
  {
   "property": "C14",
   "status": "proved",
   "theorems": [
    "C14_store"
   ],
   "note": ""
  },
  {
   "property": "C15",
   "status": "proved",
   "theorems": [
    "C15_range",
    "C15_unsupported",
    "C15_scalar_filters"
   ],
   "note": ""
  },
  {
   "property": "C16",
   "status": "partial",
   "theorems": [
    "C16_equality_refuted",
    "C16_scalar_partial",
    "C16_equal_containers_partial"
   ],
   "note": "Refuted for containers: the text of a list drops the kind of its numbers, and the text of a map depends on iteration order. Proved: exact for every field compared with a scalar, and equal containers whose maps have at most one entry are kept."
  },
  {
   "property": "C17",
   "status": "proved",
   "theorems": [
    "C17_once",
    "C17_permanent",
    "C17_order",
    "C17_closes",
    "C17_no_panic"
   ],
   "note": ""
  },
  {
   "property": "C18",
   "status": "proved",
   "theorems": [
    "C18_done_waits",
    "C18_hold_blocks",
    "C18_closes"
   ],
   "note": "For programs that call each ReleaseFn at most once; see C70 for the others."
  },
  {
   "property": "C19",
   "status": "proved",
   "theorems": [
    "C19_escalates",
    "C19_return_idle",
    "C19_exit_last",
    "C19_takes_signal"
   ],
   "note": ""
  },
  {
   "property": "C20",
   "status": "proved",
   "theorems": [
    "C20_range",
    "C20_extract"
   ],
   "note": ""
  },
  {
   "property": "C21",
   "status": "proved",
   "theorems": [
    "C21_values",
    "C21_errors",
    "C21_cancel",
    "C21_reference"
   ],
   "note": ""
  },
  {
   "property": "C22",
   "status": "partial",
   "theorems": [
    "C22_cause_refuted",
    "C22_cause_partial",
    "C22_first_cause_partial"
   ],
   "note": "Refuted as stated: Cause goes through Value, which Detach forwards, so a detached context that is not done reports the cause of its parent. Proved: with a cancellable context after the last Detach, Err and Cause agree and give the first cancellation."
  },
  {
   "property": "C23",
   "status": "partial",
   "theorems": [
    "C23_inherited",
    "C23_unique_refuted",
    "C23_span_partial"
   ],
   "note": "Uniqueness refuted: the counter is incremented on a copy, so every Span of a context gets the same id. Proved: inheritance of ids through all wrappers, and what the id of a Span is."
  },
  {
   "property": "C24",
   "status": "proved",
   "theorems": [
    "C24_nil",
    "C24_wrap",
    "C24_first_wrap"
   ],
   "note": ""
  },
  {
   "property": "C25",
   "status": "proved",
   "theorems": [
    "C25_error_code",
    "C25_nil"
   ],
   "note": ""
  },
  {
   "property": "C26",
   "status": "partial",
   "theorems": [
    "C26_own_escape_refuted",
    "C26_nested_refuted",
    "C26_gate_partial"
   ],
   "note": "Refuted as stated: all gates use the same error value, so a gate also swallows the escape of an enclosing one. Proved: the result is nil exactly when the callback returned nil or an error that is or wraps the escape of some gate, otherwise it is the error of the callback."
  },
  {
   "property": "C27",
   "status": "partial",
   "theorems": [
    "C27_parent_refuted",
    "C27_shared",
    "C27_logger_partial",
    "C27_helper_partial",
    "C27_others_partial"
   ],
   "note": "Refuted as stated: the configuration is shared by pointer, so setting a logger on a context that has one changes it for all sharers. Proved: the returned context uses the new logger, and nothing else changes when the parent had none."
  },
  {
   "property": "C28",
   "status": "proved",
   "theorems": [
    "C28_redacted"
   ],
   "note": ""
  },
  {
   "property": "C29",
   "status": "proved",
   "theorems": [
    "C29_round_trip",
    "C29_any_string",
    "C29_panics"
   ],
   "note": ""
  },
  {
   "property": "C30",
   "status": "proved",
   "theorems": [
    "C30_deterministic",
    "C30_same_entries"
   ],
   "note": ""
  },
  {
   "property": "C31",
   "status": "partial",
   "theorems": [
    "C31_direct_partial",
    "C31_json_partial",
    "C31_pointer_refuted",
    "C31_omitempty_refuted",
    "C31_hidden_refuted",
    "C31_names_refuted",
    "C31_uint_refuted",
    "C31_key_refuted",
    "C31_utf8_refuted"
   ],
   "note": "Refuted as stated: pointers to nil, omitempty pointers to zero values, hidden fields, equal JSON names, uint64 above MaxInt64 and invalid UTF-8 through JSON do not come back. Proved: for types with good tags and distinct names, the exact set of values that come back (an equivalence), directly and through JSON text."
  },
  {
   "property": "C32",
   "status": "partial",
   "theorems": [
    "C32_int_partial",
    "C32_uint_partial",
    "C32_64_partial",
    "C32_stored",
    "C32_integer_partial",
    "C32_float_partial",
    "C32_float_refuted",
    "C32_point_refuted",
    "C32_refuted"
   ],
   "note": "Refuted as stated: \"1.5e3\" is stored as 1, 300 into int8 as 44, Integer(-1) into uint8 as 255; no Float is rejected, so every one that is not an integer of the range is stored as something else. Proved: without a point, the number modulo 2^w or an error, exact for 64 bits; every plain integer that fits is stored; an Integer is stored exactly iff it fits; a Float that is an integer of the range is stored exactly."
  },
  {
   "property": "C33",
   "status": "partial",
   "theorems": [
    "C33_marshal",
    "C33_names",
    "C33_unmarshal_partial",
    "C33_refuted",
    "C33_null_refuted"
   ],
   "note": "Refuted as stated: the key \"\" sets a field tagged \"-\", and null wipes it. Proved: the Marshal half for all values; the Unmarshal half for inputs without null and without the key \"\"."
  },
  {
   "property": "C34",
   "status": "partial",
   "theorems": [
    "C34_success_partial",
    "C34_error_partial",
    "C34_refuted"
   ],
   "note": "Refuted as stated: the key \"\" sets a field tagged \"-\" and is not reported. Proved: for all maps without the key \"\", on success and on error."
  },
  {
   "property": "C35",
   "status": "proved",
   "theorems": [
    "C35_fifo",
    "C35_eof",
    "C35_closed",
    "C35_matched",
    "C35_drains",
    "C35_meet",
    "C35_directions"
   ],
   "note": ""
  },
  {
   "property": "C36",
   "status": "proved",
   "theorems": [
    "C36_duration",
    "C36_null"
   ],
   "note": "Under the stated premise float_exact: a float64 product and quotient whose exact result is an integer below 2^53 is exact, as IEEE 754 requires."
  },
  {
   "property": "C37",
   "status": "partial",
   "theorems": [
    "C37_success_partial",
    "C37_error",
    "C37_no_panic",
    "C37_empty_refuted",
    "C37_panic_refuted",
    "C37_must"
   ],
   "note": "Refuted as stated: a variable that is set but empty counts as missing; fields that are not exported, named bool/int types and maps with other key types panic. Proved: with an empty variable read as not set, success exactly if every tagged field can be filled, the exact result, keys asked, and the behaviour on error."
  },
  {
   "property": "C38",
   "status": "partial",
   "theorems": [
    "C38_parse_partial",
    "C38_error",
    "C38_map",
    "C38_list_refuted"
   ],
   "note": "Refuted as stated: a list is appended to the previous value. Proved: everything else, as an equivalence with a grammar, for all types without named bool/int and with string keys."
  },
  {
   "property": "C39",
   "status": "proved",
   "theorems": [
    "C39_new",
    "C39_recv",
    "C39_init",
    "C39_send",
    "C39_send_only"
   ],
   "note": ""
  },
  {
   "property": "C40",
   "status": "partial",
   "theorems": [
    "C40_required",
    "C40_auth_required",
    "C40_identity_partial",
    "C40_identity_value_partial",
    "C40_in_refuted",
    "C40_merge_refuted"
   ],
   "note": "Refuted as stated: a field that is both auth and in is chosen by the request when there is no identity, and merged with it when the type is a struct. Proved: required in fields and required identities are enforced for every handler and request; an auth field that is not in holds the identity whatever the request says."
  },
  {
   "property": "C41",
   "status": "partial",
   "theorems": [
    "C41_call_partial",
    "C41_json_partial",
    "C41_in_partial",
    "C41_stale_refuted",
    "C41_names_refuted"
   ],
   "note": "Refuted as stated: an omitted empty member leaves the old value in the client, two out fields with one name get one value, values that do not survive Marshal (C31) do not arrive. Proved: for types with exported, distinctly named fields and in values that survive, the call has the stated result exactly if the out values can replace what the client holds, directly and over JSON."
  },
  {
   "property": "C42",
   "status": "partial",
   "theorems": [
    "C42_no_leak",
    "C42_message_partial",
    "C42_internal_partial",
    "C42_status_refuted",
    "C42_call",
    "C42_call_body"
   ],
   "note": "Proved in full: with a status of 500 or more the reply does not depend on the error. Refuted as stated for the rest: an error with status 204, 304 or 1xx has no message or is sent as 200, and one below 100 or above 999 breaks the connection. Proved: message and tracking id for all other statuses, for methods other than HEAD."
  },
  {
   "property": "C43",
   "status": "partial",
   "theorems": [
    "C43_once",
    "C43_sent_partial",
    "C43_silent_refuted",
    "C43_hints_refuted",
    "C43_zero_refuted"
   ],
   "note": "Refuted as stated: a handler that writes nothing is recorded as 0, early hints (1xx) drop the status that follows and record 1xx, and WriteHeader(0) can be passed on together with another. Proved: at most one status unless WriteHeader(0) is called, and the recorded one is the one sent if the first is 101 or 200 to 999."
  },
  {
   "property": "C44",
   "status": "partial",
   "theorems": [
    "C44_reply_partial",
    "C44_head",
    "C44_accept_refuted",
    "C44_call"
   ],
   "note": "Refuted as stated: compression looks for gzip in Accept, not Accept-Encoding. Proved: the status, the content after decompression, and exactly when it is compressed; HEAD gets the same without the body; CallHandler likewise, without compression."
  },
  {
   "property": "C45",
   "status": "partial",
   "theorems": [
    "C45_all_data_refuted",
    "C45_all_data_partial",
    "C45_exact_partial",
    "C45_returns_partial"
   ],
   "note": "Refuted as stated: bytes that the reader returns together with io.EOF (or another error) are dropped. Proved: for readers that never return bytes with an error, ReadAll returns exactly the bytes of the stream, or the error, and returns."
  },
  {
   "property": "C46",
   "status": "partial",
   "theorems": [
    "C46_order",
    "C46_serial",
    "C46_state",
    "C46_all",
    "C46_close_refuted"
   ],
   "note": "Refuted as stated: frames already received are handled after Close. Proved under every schedule: in order, each once, one at a time, none after an error, a panic or the return of Loop, and all of them if Loop returned without one of these and without the connection breaking."
  },
  {
   "property": "C47",
   "status": "partial",
   "theorems": [
    "C47_own",
    "C47_distinct",
    "C47_isolated",
    "C47_called",
    "C47_unknown",
    "C47_type_refuted",
    "C47_shared_refuted"
   ],
   "note": "Refuted as stated: a frame of an unknown type is a request, and what the fields of the registered object point to is shared by all channels. Proved: the rest, for every sequence of frames, with fields as values."
  },
  {
   "property": "C48",
   "status": "partial",
   "theorems": [
    "C48_close_refuted",
    "C48_channel_partial"
   ],
   "note": "Refuted: a close frame closes the connection with all of its channels, and removes none. Proved: Channel.Close, which nothing calls, removes that channel and no other."
  },
  {
   "property": "C49",
   "status": "proved",
   "theorems": [
    "C49_labels",
    "C49_panics_only_on_count"
   ],
   "note": ""
  },
  {
   "property": "C50",
   "status": "proved",
   "theorems": [
    "C50_histogram",
    "C50_no_series",
    "C50_monotone"
   ],
   "note": ""
  },
  {
   "property": "C51",
   "status": "partial",
   "theorems": [
    "C51_print_never_panics_refuted",
    "C51_print_snapshot_partial"
   ],
   "note": "Refuted as stated: printing a series between its creation and its first update panics. Proved: once a series has a finished observation, printing it at any moment of any interleaving shows exactly the finished observations."
  },
  {
   "property": "C52",
   "status": "proved",
   "theorems": [
    "C52_counter",
    "C52_gauge",
    "C52_gauge_distinct",
    "C52_in_range"
   ],
   "note": ""
  },
  {
   "property": "C53",
   "status": "proved",
   "theorems": [
    "C53_exclusive",
    "C53_no_panic",
    "C53_never_lost",
    "C53_abandoned_ends",
    "C53_can_succeed"
   ],
   "note": ""
  },
  {
   "property": "C54",
   "status": "partial",
   "theorems": [
    "C54_point_ops",
    "C54_range_refuted",
    "C54_range_key_refuted",
    "C54_range_partial",
    "C54_range_err_partial",
    "C54_map_partial"
   ],
   "note": "Refuted as stated: Range, RangeErr and Map panic when a stored key or value is a nil interface. Proved: point operations always, and Range, RangeErr, Map when nothing stored is a nil interface."
  },
  {
   "property": "C55",
   "status": "partial",
   "theorems": [
    "C55_prefix_refuted",
    "C55_prefix_partial",
    "C55_eof_partial",
    "C55_drains_partial",
    "C55_close_wakes_refuted",
    "C55_set_closed_wakes_partial",
    "C55_read_after_close_partial"
   ],
   "note": "Refuted as stated: Close does not wake waiting readers (they wait for ever unless SetReadClosed is called), and Append keeps the caller's slice, so later changes of it show. Proved: order and completeness while callers leave appended slices alone; SetReadClosed wakes everybody; reads after a close return."
  },
  {
   "property": "C56",
   "status": "proved",
   "theorems": [
    "C56_injective",
    "C56_clean",
    "C56_delimited"
   ],
   "note": ""
  },
  {
   "property": "C57",
   "status": "partial",
   "theorems": [
    "C57_terminates_partial",
    "C57_loop_refuted"
   ],
   "note": "Refuted as stated: it never returns for type L []L or type P *P. Proved: it returns if every cycle of types goes through a struct type with a name."
  },
  {
   "property": "C58",
   "status": "proved",
   "theorems": [
    "C58_resolve",
    "C58_kept"
   ],
   "note": ""
  },
  {
   "property": "C59",
   "status": "partial",
   "theorems": [
    "C59_top_partial",
    "C59_nested_refuted",
    "C59_negative_refuted",
    "C59_again_refuted",
    "C59_nan_refuted",
    "C59_supported_partial",
    "C59_distinct_partial",
    "C59_distinct_refuted"
   ],
   "note": "Refuted as stated: it panics with an unsupported kind inside a list, map or struct, for a marshaler whose zero value is negative, for the example NaN; after such a panic a second call succeeds with an incomplete component; struct types whose keys collide share a component. Proved: an error for an unsupported type behind pointers; success means that all kinds reached are supported; distinct components without underscores in names."
  },
  {
   "property": "C60",
   "status": "partial",
   "theorems": [
    "C60_find_agrees_refuted",
    "C60_find_first_partial",
    "C60_asmap_last_partial",
    "C60_distinct_names_partial"
   ],
   "note": "Refuted when a JSON name occurs twice (Find takes the first, AsMap the last). Proved: what each returns for every list, and that they agree on distinct names."
  },
  {
   "property": "C61",
   "status": "proved",
   "theorems": [
    "C61_invalidate_barrier"
   ],
   "note": ""
  },
  {
   "property": "C62",
   "status": "proved",
   "theorems": [
    "C62_stable"
   ],
   "note": ""
  },
  {
   "property": "C63",
   "status": "partial",
   "theorems": [
    "C63_trailing_refuted",
    "C63_trailing_partial"
   ],
   "note": "Refuted: whatever follows the first value is ignored, so Decode accepts truncated or concatenated documents. Proved instead: trailing bytes that do not continue a number never change the result."
  },
  {
   "property": "C64",
   "status": "partial",
   "theorems": [
    "C64_tag_values_refuted",
    "C64_tag_values_partial"
   ],
   "note": "Refuted: a plain string key equal to the tag name answers the tag's JSON. Proved for all other keys."
  },
  {
   "property": "C65",
   "status": "partial",
   "theorems": [
    "C65_is_total_refuted",
    "C65_is_total_partial"
   ],
   "note": "Refuted as stated: comparing two http.Error values of the same code that hold ctx.Error values panics. Proved: no panic when the target is a ctx.Error or does not hold one inside an http.Error."
  },
  {
   "property": "C66",
   "status": "proved",
   "theorems": [
    "C66_one_stack"
   ],
   "note": ""
  },
  {
   "property": "C67",
   "status": "partial",
   "theorems": [
    "C67_args_kept_refuted",
    "C67_args_kept_partial"
   ],
   "note": "Refuted as stated: Loggable arguments are replaced in the slice of the caller. Proved for argument lists without Loggable values."
  },
  {
   "property": "C68",
   "status": "partial",
   "theorems": [
    "C68_redacted_tag_refuted",
    "C68_redacted_tag_partial"
   ],
   "note": "Refuted as stated: the tag is marshalled as JSON in the clear. Proved: no other tag depends on it."
  },
  {
   "property": "C69",
   "status": "partial",
   "theorems": [
    "C69_no_panic_refuted",
    "C69_reuse_refuted",
    "C69_no_panic_partial"
   ],
   "note": "Refuted as stated: a hold taken while Done is being woken up panics in sync.WaitGroup. Proved: no panic when each hold is taken while another is outstanding or while no channel of Done is still to be closed."
  },
  {
   "property": "C70",
   "status": "partial",
   "theorems": [
    "C70_release_twice_refuted",
    "C70_release_twice_panics_refuted",
    "C70_first_release_partial"
   ],
   "note": "Refuted as stated: a second call drops the hold of somebody else, or panics. Proved: the first call of each ReleaseFn never panics."
  },
  {
   "property": "C71",
   "status": "proved",
   "theorems": [
    "C71_after_start",
    "C71_holds_while_waiting"
   ],
   "note": ""
  },
  {
   "property": "C72",
   "status": "partial",
   "theorems": [
    "C72_no_sleep_refuted",
    "C72_no_sleep_partial"
   ],
   "note": "Refuted as stated: Append wakes one reader; if that one has room for only part of the slice, other readers sleep although data is left. Proved: true when every Read has room for every appended slice."
  },
  {
   "property": "C73",
   "status": "partial",
   "theorems": [
    "C73_written_refuted",
    "C73_written_partial",
    "C73_write_after_close"
   ],
   "note": "Refuted as stated: Write keeps the caller's slice, against the contract of io.Writer, so using it again changes Written. Proved: true while callers leave written slices alone; closed means closed."
  },
  {
   "property": "C74",
   "status": "partial",
   "theorems": [
    "C74_order_partial",
    "C74_pairs",
    "C74_refuted"
   ],
   "note": "Refuted as stated: {\"1\":..,\"01\":..} into map[int]T. Proved: for map keys in the form Marshal writes, and without UnhandledFields."
  },
  {
   "property": "C75",
   "status": "partial",
   "theorems": [
    "C75_no_panic_partial",
    "C75_decoded_partial",
    "C75_refuted"
   ],
   "note": "Refuted as stated: a Duration node into an integer or string panics, as does an unknown tag option. Proved: no panic for good tags and nodes without Duration, hence for every decoded JSON text."
  },
  {
   "property": "C76",
   "status": "partial",
   "theorems": [
    "C76_caller_partial",
    "C76_full_partial",
    "C76_refuted"
   ],
   "note": "Refuted as stated: with spare capacity in a slice of the initial value, the second result overwrites the first. Proved: the initial value itself always reads the same, and everything does if there is no spare capacity."
  },
  {
   "property": "C77",
   "status": "partial",
   "theorems": [
    "C77_no_panic_partial",
    "C77_init_refuted",
    "C77_in_refuted"
   ],
   "note": "Refuted as stated: an unexported field registered with a value makes every request panic; an unexported in field makes the requests that name it panic. Proved: no other request read from JSON does, for types with good tags."
  },
  {
   "property": "C78",
   "status": "partial",
   "theorems": [
    "C78_plain_partial",
    "C78_upstream_refuted"
   ],
   "note": "Refuted as stated: an error of Client.Do or Client.API returned by an operation keeps the status of the other service, so its 404 becomes ours, with the message. Proved: an error without any http.Error in it gives 500 and no message."
  },
  {
   "property": "C79",
   "status": "partial",
   "theorems": [
    "C79_data_partial",
    "C79_body_partial",
    "C79_json_refuted"
   ],
   "note": "Refuted as stated: a body that is not a JSON object is answered with 500. Proved: 400 with a message when the body cannot be read, or does not fit the fields."
  },
  {
   "property": "C80",
   "status": "partial",
   "theorems": [
    "C80_call_partial",
    "C80_values_partial",
    "C80_status_refuted"
   ],
   "note": "Refuted as stated: an operation that fails with an http.Error of status 200, 204 or 1xx looks like success to the client. Proved: equivalence for all other errors, and the resulting object under the conditions of C41."
  },
  {
   "property": "C81",
   "status": "partial",
   "theorems": [
    "C81_counted_partial",
    "C81_twice_refuted",
    "C81_panic_refuted"
   ],
   "note": "Refuted as stated: handlers registered with Handle or HandleFunc are counted twice, handlers that panic not at all. Proved: once for the others."
  },
  {
   "property": "C82",
   "status": "proved",
   "theorems": [
    "C82_no_identity"
   ],
   "note": ""
  },
  {
   "property": "C83",
   "status": "partial",
   "theorems": [
    "C83_ready_partial",
    "C83_code_refuted",
    "C83_live",
    "C83_wrap_refuted",
    "C83_broken_refuted"
   ],
   "note": "Refuted as stated: the code is cut to 32 bits, 1xx is sent as 200, and codes below 100 or above 999 break the connection. Proved for 101 and 200 to 999."
  },
  {
   "property": "C84",
   "status": "partial",
   "theorems": [
    "C84_length_refuted"
   ],
   "note": "Refuted: MaxLength is used nowhere."
  },
  {
   "property": "C85",
   "status": "partial",
   "theorems": [
    "C85_no_panic_partial",
    "C85_ping_refuted"
   ],
   "note": "Refuted as stated: a ping, a pong or a frame of an unknown kind panics in the goroutine of Loop, which ends the program. Proved: under every schedule there is no panic without such a frame."
  },
  {
   "property": "C86",
   "status": "partial",
   "theorems": [
    "C86_silent_refuted",
    "C86_unusable_partial"
   ],
   "note": "Refuted as stated: nothing is sent if Init fails. Proved: no method of that object is ever called."
  },
  {
   "property": "C87",
   "status": "partial",
   "theorems": [
    "C87_register_refuted",
    "C87_unexported_refuted",
    "C87_time_refuted",
    "C87_copy_partial",
    "C87_init_partial"
   ],
   "note": "Refuted as stated: with a field that is not exported and not zero, opening panics; struct values make Register panic; and whether a field is copied is decided at Register, but its value read at open. Proved: a copy of all fields if all that are not zero are exported and the registered object has not changed, and then Init gets it."
  },
  {
   "property": "C88",
   "status": "partial",
   "theorems": [
    "C88_reachable_partial",
    "C88_only",
    "C88_case_refuted",
    "C88_ascii_refuted"
   ],
   "note": "Refuted as stated: names that differ in the case of the first letter collide, and names that do not start with an ASCII letter are not reachable under their name. Proved: all are reachable if the lowered names differ, and nothing else is."
  },
  {
   "property": "C89",
   "status": "partial",
   "theorems": [
    "C89_answers_partial",
    "C89_order_partial",
    "C89_close_refuted"
   ],
   "note": "Refuted as stated: a method that closes the connection is not answered. Proved for sequences of frames during which the connection is not closed."
  },
  {
   "property": "C90",
   "status": "partial",
   "theorems": [
    "C90_open_partial",
    "C90_type_refuted"
   ],
   "note": "Refuted as stated: an error of a type that enc cannot marshal ends the connection. Proved for the others."
  },
  {
   "property": "C91",
   "status": "partial",
   "theorems": [
    "C91_ends_partial",
    "C91_leak_refuted"
   ],
   "note": "Refuted as stated: if the handler fails while a frame is waiting, the goroutine stays until the context is done. Proved: it can end as soon as the context is done."
  },
  {
   "property": "C92",
   "status": "partial",
   "theorems": [
    "C92_conforms_partial",
    "C92_values_partial",
    "C92_model",
    "C92_null_refuted",
    "C92_bytes_refuted",
    "C92_hidden_refuted",
    "C92_interface_refuted",
    "C92_raw_refuted",
    "C92_methods_refuted"
   ],
   "note": "Refuted as stated: nil is sent as null without being documented as nullable, []byte as a list of numbers, a number in an interface or in json.RawMessage as a number although an object is documented, types that marshal themselves are documented by their zero value, and fields that are not sent can take the place of others. Proved for all other values of all types with a schema, recursive types, floats and times too: without nil or with null allowed, if no two fields have the same JSON name, keys of components differ, interfaces and json.RawMessage hold objects, and types that marshal themselves always make a string, always a boolean or always a number. C92_model: on the types of MarModel this model of Marshal is that one."
  },
  {
   "property": "C93",
   "status": "partial",
   "theorems": [
    "C93_fields_partial",
    "C93_hidden_refuted"
   ],
   "note": "Refuted as stated: fields that are not exported or have the tag \"-\" are documented. Proved: the properties are exactly the names of all fields."
  },
  {
   "property": "C94",
   "status": "partial",
   "theorems": [
    "C94_documented",
    "C94_request_partial",
    "C94_response_partial",
    "C94_values_partial",
    "C94_zero_refuted"
   ],
   "note": "Refuted as stated: a required field that is present with a zero value is refused. Proved: the lists; requests and responses conform, with the limits of C92."
  },
  {
   "property": "C95",
   "status": "partial",
   "theorems": [
    "C95_round_trip_partial",
    "C95_exact",
    "C95_year_refuted",
    "C95_seconds_refuted"
   ],
   "note": "Refuted as stated: times before year 0 or after 9999 are written and cannot be read; with an offset that has seconds another instant comes back. Proved: the round trip for the years 0 to 9999 and offsets of whole minutes below a day, and for the strict texts in no other case."
  },
  {
   "property": "C96",
   "status": "proved",
   "theorems": [
    "C96_written",
    "C96_read",
    "C96_null",
    "C96_one",
    "C96_only",
    "C96_calendar"
   ],
   "note": ""
  },
  {
   "property": "C97",
   "status": "partial",
   "theorems": [
    "C97_readable_partial",
    "C97_complete",
    "C97_exact",
    "C97_request_refuted",
    "C97_help_refuted",
    "C97_le_refuted",
    "C97_counter_partial"
   ],
   "note": "Refuted as stated: a request for the path /%09 makes the whole text unreadable (any label value that Go does not print does), a line feed in Desc adds lines, a label le is doubled in histograms. Proved: without these every reader reads exactly the metrics; one value that Go does not print spoils the text of all. Counter, whose Print takes no name so that it cannot be registered, is covered on its own (C97_counter_partial)."
  },
  {
   "property": "C98",
   "status": "partial",
   "theorems": [
    "C98_registered",
    "C98_duplicate",
    "C98_all_partial",
    "C98_failure",
    "C98_prefix",
    "C98_failure_refuted",
    "C98_names_refuted",
    "C98_names_partial"
   ],
   "note": "Refuted as stated: when the Print of a metric fails after another wrote, the answer is 200 without the rest; a gauge a_count and a histogram a write the same sample. Proved: the registry keeps the first metric per name, without failures each is written once, and names that no suffix makes equal keep their samples apart."
  },
  {
   "property": "C99",
   "status": "partial",
   "theorems": [
    "C99_described",
    "C99_meant",
    "C99_text",
    "C99_fields",
    "C99_fits_refuted"
   ],
   "note": "Refuted as stated: an int with the example tag many is a number with the text many as its example. Proved: descriptions are kept, examples are there exactly if the tag is, also for each field of a struct; a tag that is JSON of the kind of the type is kept as this value, any other as text."
  },
  {
   "property": "C100",
   "status": "partial",
   "theorems": [
    "C100_unambiguous",
    "C100_exact_partial",
    "C100_writes",
    "C100_calls",
    "C100_broken",
    "C100_closed",
    "C100_close_refuted"
   ],
   "note": "Refuted as stated: Write holds the lock of wsImpl, Close that of the connection; a Close during a Write puts its frame between header and payload, the client gets a message that nobody wrote and misses one for which Write returned nil. Proved: as long as Close and Write do not use the connection at the same time (in particular without Close) the client reads exactly the messages for which Write returned nil, wherever the connection breaks; after an error or a Close no Write returns nil."
  },
  {
   "property": "C101",
   "status": "partial",
   "theorems": [
    "C101_messages_partial",
    "C101_frames",
    "C101_fragments_refuted",
    "C101_cut_refuted",
    "C101_handler_refuted"
   ],
   "note": "Refuted as stated: every message sent in two frames is taken for its first part; when the connection ends within a message, what came of it is taken for a message (12 for 12345, nil when only the header came). Proved: messages of one frame each, of any length and with any mask, are read as they are; each frame is read as it was sent."
  },
  {
   "property": "C102",
   "status": "partial",
   "theorems": [
    "C102_accepts",
    "C102_only",
    "C102_deep",
    "C102_empty",
    "C102_unambiguous",
    "C102_whole_refuted"
   ],
   "note": "Refuted as stated: what follows the first value is not looked at, so {}} is read as {}. Proved: every JSON text of the RFC's grammar nested at most 10000 deep is read as what it says, deeper ones are refused; whatever is read begins with a JSON text and is what that text says; the grammar gives every text one meaning; only the empty text reads as no node."
  },
  {
   "property": "C103",
   "status": "partial",
   "theorems": [
    "C103_texts",
    "C103_exact",
    "C103_values",
    "C103_struct_refuted",
    "C103_digits_refuted",
    "C103_integer_refuted",
    "C103_range_refuted",
    "C103_nojson_refuted",
    "C103_bytes_refuted"
   ],
   "note": "Refuted as stated: a struct whose fields are not in the order of their names equals no JSON text at all, also not its own; numbers are read as float64, so 9007199254740993 equals 9007199254740992 and an int beyond 2^53 differs from its own text; a number out of range is null; a RawMessage {}} equals {}; a []byte that is no JSON differs from the string. Proved: two texts are equal iff they say the same with numbers rounded correctly to float64, and iff they say the same when float64 holds the numbers; values of null, bool, ints up to 2^53, strings, lists, maps and ordered structs are equal to a text iff it says them; NotEqualsJSON is the opposite. Asked of encoding/json: its texts of floats are numbers, differ, and are plain digits for small integers."
  },
  {
   "property": "C104",
   "status": "partial",
   "theorems": [
    "C104_frames",
    "C104_taken",
    "C104_ends_refuted"
   ],
   "note": "Refuted as stated: every such message ends the connection with all its channels, and nothing sent after it is handled. Proved: which messages are which frames (missing and null members are empty texts, numbers count as texts, an empty message and null are an empty frame); as long as every message is taken the state is that after the frames in the order sent; nothing is called or changed for a bad message."
  },
  {
   "property": "C105",
   "status": "partial",
   "theorems": [
    "C105_trusty",
    "C105_decides",
    "C105_contains",
    "C105_shift",
    "C105_inner_refuted",
    "C105_spread_refuted",
    "C105_literal_refuted",
    "C105_nosource_refuted"
   ],
   "note": "Refuted as stated: the assertions look up their own call in the source to log it, and panic if an inner call in that line has the same name and fewer arguments (test.Assert(t, mock.Assert())), if the arguments come from one call with several results, or if an argument is func() {}; Nil, NotNil, Empty and NotEmpty always panic without the source. Proved: an assertion that passes is right at every call site; it decides its claim at every site whose calls of that name have the arguments and no empty function literal, and without the source (except those four)."
  },
  {
   "property": "C106",
   "status": "partial",
   "theorems": [
    "C106_text",
    "C106_place",
    "C106_block_refuted",
    "C106_self_refuted",
    "C106_line_refuted",
    "C106_logged"
   ],
   "note": "Refuted as stated: assignments in a block that ended before the call are not seen (err := a(); if c { err = b() }; NoError(t, err) shows a()), an assignment of which the call is a part is (n = check(t, n) shows itself), and of several calls in a line all show the arguments of the last. Proved: if it is the only call of its name in its line the text is that of the last assignment in its block or a block around it, before it or around it, else of the argument; file and line without the source or the call."
  },
  {
   "property": "C107",
   "status": "partial",
   "theorems": [
    "C107_nil",
    "C107_error",
    "C107_func_refuted",
    "C107_typednil_refuted",
    "C107_empty",
    "C107_kinds_refuted"
   ],
   "note": "Refuted as stated: a nil function counts as not nil; an error that is a nil pointer (err != nil) counts as no error; Empty and NotEmpty of numbers, booleans, arrays and functions panic. Proved for everything else, at every call site that C105 allows."
  },
  {
   "property": "C108",
   "status": "partial",
   "theorems": [
    "C108_values",
    "C108_pointers",
    "C108_nested_refuted",
    "C108_types_refuted",
    "C108_empty"
   ],
   "note": "Refuted as stated: the comparison is of the texts of %#v, so 1 and int64(1) are equal, also inside interfaces, and pointers below the top are compared by address. Proved for all values of one type built of booleans, numbers, texts, slices, arrays, maps and structs, and for pointers to such slices, arrays, maps and structs; a nil slice differs from an empty one. Types with methods that fmt calls (GoString, Format) are not modelled."
  },
  {
   "property": "C109",
   "status": "partial",
   "theorems": [
    "C109_returns",
    "C109_accepting",
    "C109_hangs_refuted"
   ],
   "note": "Refuted as stated: if the shutdown begins before the server gets to Serve, Listen blocks forever. Proved: before the shutdown it can always return (if shutdown.Hold does not panic, see C69), and after it has returned the server accepts connections and holds the program until the shutdown begins, unless Accept fails for reasons of its own."
  },
  {
   "property": "C110",
   "status": "partial",
   "theorems": [
    "C110_stops",
    "C110_holds",
    "C110_closed",
    "C110_requests",
    "C110_over",
    "C110_gone",
    "C110_last",
    "C110_fresh",
    "C110_quiet",
    "C110_waits_refuted",
    "C110_refuted"
   ],
   "note": "Refuted as stated: the hold covers Serve, which returns as soon as the listener is closed, so Done is closed and WaitForSignal returns while requests are in progress; from every state after the beginning of a shutdown the server can give up its hold without any request ending. Proved: Done is closed only when the shutdown has begun (unless Accept failed by itself) and the server is closed for good, and requests are not cut off by the server itself; when its Shutdown has returned in time, Serve is over and every connection is closed for good, a connection is closed after an answer only once Shutdown was called, and one without a request only after five seconds. ReleaseFns are called once (C69)."
  },
  {
   "property": "C111",
   "status": "partial",
   "theorems": [
    "C111_wire",
    "C111_read",
    "C111_distinct",
    "C111_refuted"
   ],
   "note": "Refuted as stated: data that is zero, an empty text or null is left out, so that Reply(path, 0), Reply(path, \"\") and Reply(path, nil) are the same. Proved: everything else arrives, nothing else is in the text, and this package reads it as the same frame."
  },
  {
   "property": "C112",
   "status": "partial",
   "theorems": [
    "C112_partial",
    "C112_crash_refuted",
    "C112_hangs_refuted",
    "C112_refuted"
   ],
   "note": "Refuted as stated: a failed request is followed by a second frame with an error, which the next call over the channel returns although its own request succeeded, and the call after that returns nil although its request failed; Open while the server writes ends the program by an unsynchronised map; a call of an unknown method, or one that panics, ends the loop and never returns. Proved: with calls one by one, none given up, and callbacks that do not fail, every call up to and including the first that fails returns the result of its own request (an error whose JSON is empty counts as nil). Not modelled: that the inbox has room for ten frames only."
  },
  {
   "property": "C113",
   "status": "partial",
   "theorems": [
    "C113_float64",
    "C113_float32",
    "C113_omitted",
    "C113_refuted"
   ],
   "note": "Refuted as stated: a negative zero in a field with omitempty is left out and reads as zero. Proved: every finite float64 and float32 survives, in either form, given only that the digits strconv writes are nearer to it than to any other float; only zeros are left out."
  },
  {
   "property": "C114",
   "status": "partial",
   "theorems": [
    "C114_float64",
    "C114_one",
    "C114_json",
    "C114_exact",
    "C114_integer",
    "C114_float32_partial",
    "C114_refuted",
    "C114_float32_refuted",
    "C114_twice_refuted"
   ],
   "note": "Refuted as stated: 1e300 is read into a float32 as infinity without an error, and a number is rounded to float64 first, so that the float32 need not be the nearest; 2^53+1 is read as 2^53 without an error. Proved: into a float64, exactly the nearest, or an error exactly if too big; a float32 is the nearest of that."
  },
  {
   "property": "C115",
   "status": "partial",
   "theorems": [
    "C115_partial",
    "C115_refuted",
    "C115_direct_refuted"
   ],
   "note": "Refuted as stated: a number that is too big for a float64 becomes a string where encoding/json fails; without JSON in between integers are int64, and nested structs have the names of their fields as keys where the outer one has those of JSON. Proved: with numbers that can be converted, exactly what encoding/json gives."
  },
  {
   "property": "C116",
   "status": "partial",
   "theorems": [
    "C116_partial",
    "C116_refuted",
    "C116_exhausted_refuted"
   ],
   "note": "Refuted as stated: the response of every answer with another status than 200 and 204 is dropped without closing its body, so with content its connection stays occupied until the context is done; as many of them as there can be connections, and every further call fails. Proved: in all other cases it is given back."
  },
  {
   "property": "C117",
   "status": "proved",
   "theorems": [
    "C117_result",
    "C117_returns"
   ],
   "note": ""
  },
  {
   "property": "C118",
   "status": "partial",
   "theorems": [
    "C118_known_partial",
    "C118_single_partial",
    "C118_returns",
    "C118_refuted",
    "C118_twice_refuted"
   ],
   "note": "Refuted as stated: the warnings are kept in a global map without a lock, so when a type with UnmarshalJSON, or a json.RawMessage, is decoded for the first time, a second call at the same time can stop the whole program, or log the warning again. Proved: nothing of it happens with one call at a time, or once every such type has been decoded."
  },
  {
   "property": "C119",
   "status": "proved",
   "theorems": [
    "C119_shared",
    "C119_others",
    "C119_unchanged",
    "C119_begins",
    "C119_plain"
   ],
   "note": ""
  },
  {
   "property": "C120",
   "status": "partial",
   "theorems": [
    "C120_partial",
    "C120_clean",
    "C120_refuted",
    "C120_relative_refuted",
    "C120_longest",
    "C120_redirect",
    "C120_cleaned"
   ],
   "note": "Refuted as stated: a documented path that is not clean (\"/api/./x\") is reached by no request, and one without a leading slash (\"api/x\") only by requests for the host \"api\" (RegisterAPI accepts both). Proved: for all histories of paths with a leading slash, a documented path that is clean is served by the call that documented it; requests reach only clean patterns; the longest pattern gets the path; a redirect leads to no second one; a redirect leads to the one clean path that the request's path comes to when \".\", \"..\" and empty elements are taken away, or to it with a slash."
  },
  {
   "property": "C121",
   "status": "partial",
   "theorems": [
    "C121_partial",
    "C121_hosts",
    "C121_refuted"
   ],
   "note": "Refuted as stated: a pattern with a host (\"h/\") takes them from the requests for that host. Proved: they get to their handlers after any history without hosts, and in any history only a pattern with a host that matches can take them."
  },
  {
   "property": "C122",
   "status": "partial",
   "theorems": [
    "C122_done",
    "C122_partial",
    "C122_left",
    "C122_refuted",
    "C122_panic_refuted",
    "C122_panics",
    "C122_kept"
   ],
   "note": "Refuted as stated: when a schema cannot be made, RegisterAPI returns an error but leaves all paths served and undocumented; when it panics at a taken path, the paths before it stay served and undocumented. Proved: success serves and documents all paths; an object that api.NewServer refuses or that has no urls leaves the server as it was; exactly what a failed call leaves; when it panics; nothing is ever lost or replaced."
  },
  {
   "property": "C123",
   "status": "partial",
   "theorems": [
    "C123_reported_partial",
    "C123_where_partial",
    "C123_where_refuted",
    "C123_kept_partial",
    "C123_kept_refuted"
   ],
   "note": "Refuted as stated: below a map all entries have the path \"#val\", so unknown fields of different entries share one path; and a path that is kept is overwritten by the one of the next unknown field of the same struct (from depth 3 on, except at 2^k+1 elements). Proved: every unknown field is reported once with its node and, at the time of the call, the path to it (inputs without the key \"\", see C34), and success means that none was refused; without maps the path tells the fields apart; paths of 2^k+1 elements stay as they are."
  },
  {
   "property": "C124",
   "status": "partial",
   "theorems": [
    "C124_partial",
    "C124_refuted",
    "C124_syncmap_refuted"
   ],
   "note": "Refuted as stated: a method declared for *T does not write a T stored by value (Marshal copies fields into interfaces), so a struct with a sync.Map field always gives {} for it, and no error. Proved: if such methods are declared for T, or the types occur behind pointers, Marshal succeeds exactly with the node that the methods give at all places (and exactly when no nil pointer of C125 is met)."
  },
  {
   "property": "C125",
   "status": "partial",
   "theorems": [
    "C125_partial",
    "C125_only",
    "C125_refuted",
    "C125_nil_map"
   ],
   "note": "Refuted as stated: a nil *T panics if T declares its MarshalNode or MarshalJSON on values (time.Time, enc.Duration, ...); the zero struct has it, and so has one read from null. Proved: without such a nil outside of values that methods write Marshal never panics, and with one it never succeeds."
  },
  {
   "property": "C126",
   "status": "partial",
   "theorems": [
    "C126_partial",
    "C126_syncmap",
    "C126_refuted",
    "C126_merge_refuted"
   ],
   "note": "Refuted as stated: a sync.Map that is a field of a struct comes back empty (written as {}), and Unmarshal into a sync.Map with content merges. Proved: with methods for values or types behind pointers, hidden fields zero, no pointer to something null and no non-zero value that omitempty drops, everything comes back; a *sync.Map does with any content."
  },
  {
   "property": "C127",
   "status": "partial",
   "theorems": [
    "C127_line_partial",
    "C127_call_partial",
    "C127_levels",
    "C127_below",
    "C127_level_refuted",
    "C127_msg_refuted",
    "C127_error_refuted"
   ],
   "note": "Refuted as stated: ReplaceAttr is called for tags too, so a tag \"level\" makes every enabled log call panic and a tag \"msg\" shows as \"message\"; and a tag \"error\" is lost when an error is logged. Proved: without tags of these two names (and, for the tag \"error\", without errors among the arguments) the line is one line of valid JSON with all of it, the text of a level belongs to no other level, and nothing is written below the minimum."
  },
  {
   "property": "C128",
   "status": "partial",
   "theorems": [
    "C128_level_partial",
    "C128_level_refuted"
   ],
   "note": "Refuted as stated: NewDefaultSlogLogger sets the shared level back to debug, for all default loggers. Proved: it holds as long as no further default logger is created."
  },
  {
   "property": "C129",
   "status": "partial",
   "theorems": [
    "C129_partial",
    "C129_all_partial",
    "C129_disconnect",
    "C129_last",
    "C129_text_refuted",
    "C129_refuted"
   ],
   "note": "Refuted as stated: the message of every error is sent in an \"error\" frame, so a client can tell internal errors apart. Proved: stacks, tags, identities and wrapped causes never influence what is sent, for all that a client sends and up to the \"disconnect\" frame that ends the connection; what that frame says is one of at most three frames that depend only on what the client sent, and it is the last one. Taken as given: the error of enc.Unmarshal into a Frame depends only on the node."
  },
  {
   "property": "C130",
   "status": "partial",
   "theorems": [
    "C130_partial",
    "C130_without",
    "C130_prefix_refuted",
    "C130_comment_refuted",
    "C130_tab_refuted",
    "C130_quotes_refuted"
   ],
   "note": "Refuted as stated: a.io/xy/f.go counts as a file of the module a.io/x; the word module in a comment before the directive is taken for it; a tab or quotes give no module or a wrong one. Proved: if the directive is the first \"module \" in the nearest go.mod, written with spaces and without quotes, its files are found, and files whose path does not begin with the text of the module path stay as they are."
  },
  {
   "property": "C131",
   "status": "partial",
   "theorems": [
    "C131_name",
    "C131_short",
    "C131_init_refuted"
   ],
   "note": "Refuted as stated: an init function has its number as its name. Proved: for all other functions, methods and closures, generic or not."
  },
  {
   "property": "C132",
   "status": "partial",
   "theorems": [
    "C132_partial",
    "C132_refuted",
    "C132_one"
   ],
   "note": "Refuted as stated: for every writable value that refers to itself through what is written, Marshal never returns (the stack overflows, which ends the program). Proved: it returns for every value without such a cycle, shared parts included, and with one result."
  },
  {
   "property": "C133",
   "status": "partial",
   "theorems": [
    "C133_integer_partial",
    "C133_close_partial",
    "C133_exact_partial",
    "C133_refuted",
    "C133_wraps_refuted",
    "C133_panics_refuted"
   ],
   "note": "Refuted as stated: \"1.001\" seconds are a nanosecond short; an Integer whose product does not fit gives another duration; a text that fits neither int64 nor float64 panics. Proved: the exact product for integers that fit; for numbers with a point or an exponent the product up to two nanoseconds and one part in 2^51, and exactly when the number is a float and the product a whole number below 2^53."
  },
  {
   "property": "C134",
   "status": "partial",
   "theorems": [
    "C134_refuted",
    "C134_idle",
    "C134_holds_partial",
    "C134_waits",
    "C134_ends",
    "C134_cancelled",
    "C134_second_signal",
    "C134_completes"
   ],
   "note": "Refuted as stated: nothing tells Loop that the shutdown has begun, so a client that stays connected and says nothing keeps its connection open, and Done from closing, for ever. Proved: the connection holds the shutdown exactly while it is open; Done waits for its handler; it ends when its client leaves, in boundedly many of its steps, and can end when the context of Listen is cancelled, which the second signal does; when all clients have left, Done closes."
  },
  {
   "property": "C135",
   "status": "partial",
   "theorems": [
    "C135_http_partial",
    "C135_state_refuted",
    "C135_auth_refuted",
    "C135_uint_refuted",
    "C135_text_refuted",
    "C135_status_refuted"
   ],
   "note": "Refuted as stated: TestAPI and Test make the server from the object that is sent, so the operation sees values that no client can send; TestAPI has an identity, HTTP requests have none; a uint64 above MaxInt64 and text that is not UTF-8 only get across in the test; an error with status 204 is only seen in the test. Proved: the three give the same when the object holds what was registered in the fields that are not sent, the values have a JSON text, there is no identity and no error looks like success."
  },
  {
   "property": "C136",
   "status": "partial",
   "theorems": [
    "C136_partial",
    "C136_done",
    "C136_prefix_refuted",
    "C136_host_refuted",
    "C136_panics_refuted",
    "C136_other_refuted"
   ],
   "note": "Refuted as stated: the path of BaseUrl is ignored, so operations below a prefix are not found; an url with a host is asked there, whatever BaseUrl is; without an url the client panics, without BaseUrl a path is an error; a path with something to clean is registered as it is but asked for clean, and another operation may answer. Proved: the request reaches the registration if its first url is an absolute path, in any escaping, with nothing to clean, and nobody registered hosts."
  },
  {
   "property": "C137",
   "status": "partial",
   "theorems": [
    "C137_partial",
    "C137_refuted",
    "C137_panics_refuted",
    "C137_interface_refuted",
    "C137_interface_panics_refuted",
    "C137_plain"
   ],
   "note": "Refuted as stated: whenever a factory makes a value, Unmarshal panics in reflect, so no value of a factory ever gets into a variable; a variable of an interface type with methods gets nothing but null and native values that implement it, and other values make Unmarshal panic. Proved: the error of a factory is returned; without a factory for one of its parts a variable is read as without Factory, which is the model of C31 for types without interfaces."
  },
  {
   "property": "C138",
   "status": "partial",
   "theorems": [
    "C138_partial",
    "C138_rearranges",
    "C138_func",
    "C138_int",
    "C138_nan_refuted",
    "C138_stable_refuted"
   ],
   "note": "Refuted as stated: one score that is NaN leaves larger scores before smaller ones; from 13 elements on, elements of the same score may change their order. Proved: whatever less is, Sort returns with the same elements; for every strict weak order (so also for scores that are ints, strings or floats without NaN) they are in order afterwards."
  },
  {
   "property": "C139",
   "status": "partial",
   "theorems": [
    "C139_partial",
    "C139_only",
    "C139_origin_refuted",
    "C139_absent_refuted",
    "C139_null_refuted",
    "C139_protocols_refuted",
    "C139_wellformed"
   ],
   "note": "Refuted as stated: the pages of every site are accepted; clients without an Origin header, and pages whose origin is null, are refused with 403; who asks for several subprotocols is refused with 400. Proved: handshakes from the own origin with at most one subprotocol are accepted, and what is accepted is a handshake for version 13 with an Origin that is an URL (or a path, or \"*\")."
  },
  {
   "property": "C140",
   "status": "proved",
   "theorems": [
    "C140_exclusive",
    "C140_logged",
    "C140_progress"
   ],
   "note": ""
  },
  {
   "property": "C141",
   "status": "partial",
   "theorems": [
    "C141_partial",
    "C141_once",
    "C141_taken",
    "C141_snapshot_refuted"
   ],
   "note": "Refuted as stated: Map loads one key after the other, so it may return the old value of a key and the new one of another key that was stored later. Proved: every entry of it was there at some moment of the call, and what is missing was missing at some moment of it; LoadOrStore, GetOrStore and LoadAndDelete as stated, while nobody stores or deletes the key."
  },
  {
   "property": "C142",
   "status": "partial",
   "theorems": [
    "C142_partial",
    "C142_document",
    "C142_served",
    "C142_register_refuted",
    "C142_get_refuted"
   ],
   "note": "Refuted as stated: the documented paths are in a map without a lock, so the Go runtime may stop the whole program when two goroutines register at the same time, or one registers during a GET of /openapi.json. Proved: this does not happen while no registration goes on together with another one or with a GET; the rest as stated in all executions."
  },
  {
   "property": "C143",
   "status": "partial",
   "theorems": [
    "C143_linear",
    "C143_mem",
    "C143_same",
    "C143_loads",
    "C143_lru",
    "C143_store",
    "C143_progress_partial",
    "C143_loader_refuted",
    "C143_delay_refuted"
   ],
   "note": "Refuted as stated: the lock is held while the loader runs, so a loader that calls its cache never returns and neither does any later call, and a load delays all other calls, hits too. Proved: every execution is linearizable to the histories of C07 to C11 and C14; without such loaders all calls can return."
  },
  {
   "property": "C144",
   "status": "partial",
   "theorems": [
    "C144_turns",
    "C144_once",
    "C144_partial",
    "C144_all_refuted"
   ],
   "note": "Refuted for All: it can return nothing though at each moment of the call the set has an element. Proved: all about Add, Remove and Has; All lists no element twice, each listed one was in the set at some moment of the call, and each other was not in it at some moment of the call."
  },
  {
   "property": "C145",
   "status": "partial",
   "theorems": [
    "C145_partial",
    "C145_others",
    "C145_refuted",
    "C145_reach"
   ],
   "note": "Refuted as stated: the lock of a series is held while its lines are written to the client, and the server has no WriteTimeout; a client that stops reading in the middle of a series keeps every request counted in it, now or later, from being answered for as long as it likes, and that can be any series. Proved: a request waits only for clients that are reading one of its own series, and is answered when they have read that series."
  },
  {
   "property": "C146",
   "status": "partial",
   "theorems": [
    "C146_exact",
    "C146_kept",
    "C146_partial",
    "C146_paths",
    "C146_refuted"
   ],
   "note": "Refuted as stated: the server counts each request under the path of its URL, also when nothing is registered there, so anybody can make as many series as they like with as many GET requests, and none goes away. Proved: there is one series for each combination of method, path and status that was counted and no other; their number is at most the product of the numbers of methods, paths and statuses."
  },
  {
   "property": "C147",
   "status": "partial",
   "theorems": [
    "C147_map",
    "C147_got_partial",
    "C147_got_refuted"
   ],
   "note": "Refuted as stated: a number that is too big for a float64 is got back as a string, and two integers of more than 53 bits may be stored as the same one. Proved: each call returns what was stored last under its key, from the bytes of the request to those of the reply, for every JSON value whose numbers can be converted to float64, up to that conversion and the order of members, given that the digits printed for a float64 are nearer to it than to any other."
  },
  {
   "property": "C148",
   "status": "partial",
   "theorems": [
    "C148_partial",
    "C148_refuted"
   ],
   "note": "Refuted as stated: the mutex of the store is never locked; of any two requests that set one key both may be told the same previous value, and both may write the map at once, which Go may answer by ending the program. Proved: requests that do not overlap return what they return one after the other, and the map is never used while it is written."
  },
  {
   "property": "C149",
   "status": "partial",
   "theorems": [
    "C149_partial",
    "C149_must",
    "C149_refuted"
   ],
   "note": "Refuted as stated: in `return t, t.Parse(s)` the language leaves open whether t is read before or after the call; if it is read before, every text gives zero and no error. Proved with the call first, which is what the Go compiler does today; the errors, MustTime and MustDuration in either order."
  },
  {
   "property": "C150",
   "status": "partial",
   "theorems": [
    "C150_partial",
    "C150_refuted",
    "C150_raw",
    "C150_enc",
    "C150_stream",
    "C150_stream_refuted",
    "C150_stream_raw",
    "C150_marshal"
   ],
   "note": "Refuted as stated: the slice is kept and not copied, so whatever is written over that part of the text is what the value becomes; of two documents of the same length read with a json.Decoder the first turns into the second, and a nil ctx.JSON fails to marshal where a nil json.RawMessage gives null. Proved: unchanged as long as that part is not written to, always so when read by enc.Unmarshal, and for a stream which document each byte comes from; marshaled the same when not nil."
  },
  {
   "property": "C151",
   "status": "partial",
   "theorems": [
    "C151_log",
    "C151_partial",
    "C151_refuted",
    "C151_stack",
    "C151_positions"
   ],
   "note": "Refuted as stated: the stack of an error made with http.NewErrorf always starts at a line of the library, http/error.go:14. Proved for all log functions, for ctx.NewErrorf and WrapError (up to 100 lines), for utils.Stack and utils.Caller, the warning about a second WriteHeader and the holder of a MetricsMutex; a position tells file and line."
  },
  {
   "property": "C152",
   "status": "partial",
   "theorems": [
    "C152_partial",
    "C152_refuted",
    "C152_context",
    "C152_ends"
   ],
   "note": "Refuted as stated: a *testing.B or *testing.F, which WithTester takes, is not found by ExtractTester, and EqualsJSON and ContainsJSON panic on such a context. Proved for every *testing.T; the rest as stated, for contexts that are not detached."
  },
  {
   "property": "C153",
   "status": "proved",
   "theorems": [
    "C153",
    "C153_again"
   ],
   "note": "For keys that are equal to themselves (a map may hold several NaN)."
  },
  {
   "property": "C154",
   "status": "partial",
   "theorems": [
    "C154_refuted",
    "C154_full",
    "C154_partial"
   ],
   "note": "Refuted as stated: once the way to a client that does not read is full no Send to it returns, nor any Close of its connection, and the end of the context changes nothing; every goroutine that sends to it stands. Proved: if the client reads on, every Send and Close under way can return, with nil unless the connection was closed, by steps of that client, of the caller and of the holder of the lock alone."
  },
  {
   "property": "C155",
   "status": "partial",
   "theorems": [
    "C155_partial",
    "C155_late",
    "C155_handled",
    "C155_length_refuted",
    "C155_context_refuted",
    "C155_longer_refuted"
   ],
   "note": "Refuted as stated: MaxLength is not looked at; the context of Handler ends ReadTimeout after the beginning of the request, so a slow body takes its time away; and beyond 30 seconds the server gives up reading whatever ReadTimeout says. Proved: Handler is called only after the whole body was sent; a request is refused only if the connection broke, its context ended or one of the two times is over; late bodies can be refused at once and complete ones handled at once."
  },
  {
   "property": "C156",
   "status": "partial",
   "theorems": [
    "C156_partial",
    "C156_where",
    "C156_refuted",
    "C156_number_refuted"
   ],
   "note": "Refuted as stated: entries of maps all have the path #val, and the messages for numbers that are out of range and for arrays of the wrong length name no place. Proved: a path that is named leads to a node that cannot be read as the type there, or to a map with a bad key, and the other messages are due to such a number or array; if the type holds no maps, the text of the path tells the place."
  },
  {
   "property": "C157",
   "status": "partial",
   "theorems": [
    "C157_partial",
    "C157_ends",
    "C157_others",
    "C157_refuted",
    "C157_same_refuted"
   ],
   "note": "Refuted as stated: no request has a tracking id of its own; all requests of a Listen show the one of the context given to Listen, which is empty if that has none. Proved: the tags, what is found under their names, when the context ends, and that the end of another request does not end it unless it ends the context given to Listen."
  },
  {
   "property": "C158",
   "status": "partial",
   "theorems": [
    "C158_partial",
    "C158_distinct",
    "C158_ends",
    "C158_others",
    "C158_same_refuted",
    "C158_sid_refuted"
   ],
   "note": "Refuted as stated: if the context given to Listen has a tracking id, all websocket connections have the same one; connections of an RpcHandler have no session id. Proved: the tags and what is found under their names, that tracking ids differ if the context given to Listen has none and uuid.NewString repeats no answer, when the context ends, and that another connection does not end it unless it ends the context given to Listen."
  },
  {
   "property": "C159",
   "status": "partial",
   "theorems": [
    "C159_partial",
    "C159_ws_partial",
    "C159_utf8",
    "C159_refuted"
   ],
   "note": "Refuted as stated: paths that differ in bytes that are no UTF-8 have the same lines. Proved: each line is one line of JSON which tells these values, undecodable bytes replaced, and no other values under these names, provided that the context given to Listen has no tag level or msg (C127) and no argument of the call sets tags."
  },
  {
   "property": "C160",
   "status": "partial",
   "theorems": [
    "C160_partial",
    "C160_request",
    "C160_refuted",
    "C160_bad_refuted"
   ],
   "note": "Refuted as stated: of an error that wraps several, the stack and tags of the first ctx.Error only are shown; and if a tag of one of the errors is no JSON (raw JSON is not checked), none of the errors of the call are told. Proved otherwise, for the first ctx.Error of each error, provided that its tags are JSON nested at most 9990 deep, that the context of the call has no tag level or msg (C127) and that no argument of the call sets tags."
  },
  {
   "property": "C161",
   "status": "partial",
   "theorems": [
    "C161_partial",
    "C161_agree",
    "C161_seen",
    "C161_deleted",
    "C161_mixed_refuted",
    "C161_half_refuted"
   ],
   "note": "Refuted as stated: two calls at once can leave a mix of both documents, and who reads during a call can get a new value and then an old one. Proved: afterwards each key of a document has the value of one of the documents that have it, other keys are as before, documents that cannot be read change nothing; if the documents agree on shared keys, all of them are in the map; nothing else is ever seen. Keys that are deleted meanwhile are excepted; a deleted key that is in none of the documents is gone."
  },
  {
   "property": "C162",
   "status": "partial",
   "theorems": [
    "C162_partial",
    "C162_trusty",
    "C162_names_refuted"
   ],
   "note": "Refuted as stated: the texts of %T are compared, so types of the same name in packages of the same name pass for one. Proved: it passes for all values of one type and for nil and nil, and fails if the types are written differently and for nil and a value; whatever the source looks like, if it passes, the types are written the same. Which calls panic is C105."
  }
 ]
}
