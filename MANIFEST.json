{
 "claims": [
  {
   "property": "C01",
   "status": "proved",
   "theorems": [
    "c01_vector_refines_bounded_sequence",
    "c01_vector_call_from_any_state"
   ],
   "note": ""
  },
  {
   "property": "C02",
   "status": "proved",
   "theorems": [
    "c02_vector_size_bounded",
    "c02_vector_overflow_atomic"
   ],
   "note": ""
  },
  {
   "property": "C03",
   "status": "proved",
   "theorems": [
    "c03_vector_lifetimes"
   ],
   "note": ""
  },
  {
   "property": "C04",
   "status": "proved",
   "theorems": [
    "c04_vector_survives_throwing_copy",
    "c04_vector_always_valid",
    "c04_push_back_strong_guarantee"
   ],
   "note": ""
  },
  {
   "property": "C05",
   "status": "partial",
   "theorems": [
    "c05_deque_constructor_leaks_refuted",
    "c05_constructor_leaks_refuted"
   ],
   "note": "The property is false of the code: refuted (constructed prefix is leaked when a constructor throws)."
  },
  {
   "property": "C06",
   "status": "partial",
   "theorems": [
    "c06_push_back_own_element",
    "c06_resize_own_element",
    "c06_insert_own_element_partial",
    "c06_insert_own_element_stores",
    "c06_insert_own_element_refuted"
   ],
   "note": "push_back and resize proved; insert(pos, n, v[i]) is proved right exactly when i < pos + n or v[i-n] = v[i] (iff), so the property fails exactly outside that (refutation given)."
  },
  {
   "property": "C07",
   "status": "proved",
   "theorems": [
    "c07_vector_debug_catches_misuse"
   ],
   "note": ""
  },
  {
   "property": "C08",
   "status": "proved",
   "theorems": [
    "c08_deque_at",
    "c08_array_at",
    "c08_vector_at"
   ],
   "note": ""
  },
  {
   "property": "C09",
   "status": "proved",
   "theorems": [
    "c09_preallocated_vector",
    "c09_init_only_once",
    "c09_without_memory"
   ],
   "note": ""
  },
  {
   "property": "C10",
   "status": "proved",
   "theorems": [
    "c10_deque_refines_bounded_sequence",
    "c10_deque_call_from_any_state"
   ],
   "note": ""
  },
  {
   "property": "C11",
   "status": "proved",
   "theorems": [
    "c11_iterator_arithmetic",
    "c11_iterator_order",
    "c11_begin_end",
    "c11_iterator_element"
   ],
   "note": ""
  },
  {
   "property": "C12",
   "status": "proved",
   "theorems": [
    "c12_deque_size_bounded",
    "c12_deque_overflow_atomic"
   ],
   "note": ""
  },
  {
   "property": "C13",
   "status": "proved",
   "theorems": [
    "c13_deque_lifetimes"
   ],
   "note": ""
  },
  {
   "property": "C14",
   "status": "proved",
   "theorems": [
    "c14_deque_survives_throwing_copy",
    "c14_deque_always_valid",
    "c14_push_strong_guarantee"
   ],
   "note": ""
  },
  {
   "property": "C15",
   "status": "partial",
   "theorems": [
    "c15_push_own_element",
    "c15_resize_own_element",
    "c15_insert_own_element_partial",
    "c15_insert_own_element_stores",
    "c15_insert_own_element_refuted"
   ],
   "note": "push_back, push_front and resize proved; for insert the exact condition under which the right value is stored is proved (iff), so the property fails exactly outside it (refutation given)."
  },
  {
   "property": "C16",
   "status": "proved",
   "theorems": [
    "c16_deque_insert_iterator",
    "c16_deque_erase_iterator",
    "c16_vector_insert_iterator",
    "c16_vector_erase_iterator"
   ],
   "note": ""
  },
  {
   "property": "C17",
   "status": "partial",
   "theorems": [
    "c17_preallocated_deque_partial",
    "c17_preallocated_deque_small_buffer_refuted",
    "c17_without_memory_refuted",
    "c17_init_only_once"
   ],
   "note": "Proved for every buffer of at least sizeof(T) bytes; refuted for every smaller one (max_size() wraps)."
  },
  {
   "property": "C18",
   "status": "proved",
   "theorems": [
    "c18_deque_copy",
    "c18_deque_assign",
    "c18_deque_equality",
    "c18_preallocated_deque_equality",
    "c18_vector_copy",
    "c18_vector_assign",
    "c18_vector_equality",
    "c18_preallocated_vector_equality"
   ],
   "note": ""
  },
  {
   "property": "C19",
   "status": "proved",
   "theorems": [
    "c19_list_refines_sequences"
   ],
   "note": ""
  },
  {
   "property": "C20",
   "status": "proved",
   "theorems": [
    "c20_other_lists_unchanged",
    "c20_each_element_in_one_place",
    "c20_erased_can_be_reinserted"
   ],
   "note": ""
  },
  {
   "property": "C21",
   "status": "proved",
   "theorems": [
    "c21_splice_from_another_list",
    "c21_splice_backward_in_same_list",
    "c21_splice_forward_in_same_list",
    "c21_splice_one_element",
    "c21_splice_whole_list",
    "c21_swap",
    "c21_empty_range_at_end_asserts"
   ],
   "note": ""
  },
  {
   "property": "C22",
   "status": "proved",
   "theorems": [
    "c22_backward_is_reverse_of_forward"
   ],
   "note": ""
  },
  {
   "property": "C23",
   "status": "proved",
   "theorems": [
    "c23_bitpattern_is_a_list_of_bits",
    "c23_stored_value_in_range",
    "c23_bad_position_asserts"
   ],
   "note": ""
  },
  {
   "property": "C24",
   "status": "proved",
   "theorems": [
    "c24_array_fill",
    "c24_array_equality",
    "c24_array_index",
    "c24_array_iteration",
    "c24_array_front_back"
   ],
   "note": ""
  },
  {
   "property": "C25",
   "status": "proved",
   "theorems": [
    "c25_message_is_safe_truncation",
    "c25_no_overflow_for_any_line",
    "c25_copy_into_any_room"
   ],
   "note": ""
  },
  {
   "property": "C26",
   "status": "partial",
   "theorems": [
    "c26_line_in_decimal_partial",
    "c26_line_zero_refuted",
    "c26_any_buffer_partial",
    "c26_any_buffer_refuted"
   ],
   "note": "Proved for every line from 1; refuted for line 0, which is printed as the empty string."
  },
  {
   "property": "C27",
   "status": "proved",
   "theorems": [
    "c27_failing_check",
    "c27_control_continues_only_if",
    "c27_passing_check"
   ],
   "note": ""
  },
  {
   "property": "C28",
   "status": "proved",
   "theorems": [
    "c28_event_flag_is_atomic"
   ],
   "note": ""
  },
  {
   "property": "C29",
   "status": "proved",
   "theorems": [
    "c29_no_lost_wakeup",
    "c29_only_forever_waits_remain",
    "c29_calls_in_progress_end",
    "c29_auto_reset_releases_once"
   ],
   "note": ""
  },
  {
   "property": "C30",
   "status": "proved",
   "theorems": [
    "c30_mutex_is_atomic_and_recursive",
    "c30_at_most_one_holder",
    "c30_free_after_n_unlocks",
    "c30_blocked_only_by_owner",
    "c30_calls_in_progress_end"
   ],
   "note": ""
  },
  {
   "property": "C31",
   "status": "partial",
   "theorems": [
    "c31_unlock_of_free_mutex_partial",
    "c31_unlock_by_other_thread_refuted"
   ],
   "note": "Proved when the mutex is free and no other call is in progress; refuted when another thread holds it."
  },
  {
   "property": "C32",
   "status": "proved",
   "theorems": [
    "c32_lock_guard_pairs_lock_and_unlock",
    "c32_no_lock_left_over",
    "c32_one_scope"
   ],
   "note": ""
  },
  {
   "property": "C33",
   "status": "proved",
   "theorems": [
    "c33_queue_is_linearizable",
    "c33_fifo_no_loss_no_duplication",
    "c33_no_spurious_error"
   ],
   "note": ""
  },
  {
   "property": "C34",
   "status": "proved",
   "theorems": [
    "c34_never_overfull_never_underflows"
   ],
   "note": ""
  },
  {
   "property": "C35",
   "status": "proved",
   "theorems": [
    "c35_no_deadlock_no_lost_wakeup",
    "c35_calls_in_progress_end",
    "c35_waiter_is_right_or_about_to_be_signalled"
   ],
   "note": ""
  },
  {
   "property": "C36",
   "status": "partial",
   "theorems": [
    "c36_timed_out_only_when_full_or_contended_partial",
    "c36_try_send_times_out_on_empty_queue_refuted"
   ],
   "note": "Proved up to contention: a timed-out call saw the queue full/empty during the call, or another call of its kind was in progress; refuted in general (trySend times out on an empty queue while another send holds the send mutex)."
  },
  {
   "property": "C37",
   "status": "proved",
   "theorems": [
    "c37_throwing_copy_loses_nothing"
   ],
   "note": ""
  },
  {
   "property": "C38",
   "status": "partial",
   "theorems": [
    "c38_destroy_leaves_exactly_the_pending_messages_partial",
    "c38_destroy_leaks_pending_messages_refuted"
   ],
   "note": "destroy leaves exactly the pending messages undestroyed: none if all were received; refuted otherwise (~RingBuf is empty)."
  },
  {
   "property": "C39",
   "status": "partial",
   "theorems": [
    "c39_block_holds_object_and_slots_partial",
    "c39_create_and_destroy_release_everything",
    "c39_create_succeeds_when_the_platform_does",
    "c39_create_size_max_refuted"
   ],
   "note": "Cleanup proved at every failure point; sizes proved when the true size fits in size_t, refuted for create(SIZE_MAX)."
  },
  {
   "property": "C40",
   "status": "proved",
   "theorems": [
    "c40_thread_is_atomic",
    "c40_nobody_is_left_waiting",
    "c40_calls_in_progress_end"
   ],
   "note": ""
  },
  {
   "property": "C41",
   "status": "proved",
   "theorems": [
    "c41_destroy_ends_the_thread",
    "c41_destroy_returns",
    "c41_without_the_proviso_refuted"
   ],
   "note": ""
  },
  {
   "property": "C42",
   "status": "proved",
   "theorems": [
    "c42_nothing_escapes",
    "c42_normal_run",
    "c42_thread_dispatch",
    "c42_timer_dispatch",
    "c42_timer_stop_throws"
   ],
   "note": ""
  },
  {
   "property": "C43",
   "status": "partial",
   "theorems": [
    "c43_start_returns_refuted",
    "c43_stop_returns_refuted",
    "c43_callback_returns_refuted",
    "c43_two_starters_refuted",
    "c43_two_stoppers_refuted",
    "c43_undisturbed_calls_return_partial",
    "c43_starts_alone_return_partial",
    "c43_one_shot_comes_to_rest"
   ],
   "note": "False of the code: refuted in five ways (stop during callback then start; stop meeting the expiry; stop();start() inside the callback; two starters; two stoppers). Proved: calls that are not disturbed return, starts alone always return, and a one-shot timer always comes to rest in a bounded number of steps."
  },
  {
   "property": "C44",
   "status": "partial",
   "theorems": [
    "c44_one_shot_fires_once_per_start",
    "c44_started_timer_fires",
    "c44_after_stop_partial",
    "c44_stop_prevents_the_callback_refuted",
    "c44_destroyed_timer_is_silent",
    "c44_destroy_returns"
   ],
   "note": "Proved: rounds of start / cancel-or-exactly-one-callback, firing, isStarted after stop, destroy. Refuted: a stop() that returned before the callback began does not always prevent it (expiry window)."
  },
  {
   "property": "C45",
   "status": "partial",
   "theorems": [
    "c45_periodic_calls_back_only_while_started",
    "c45_after_stop",
    "c45_somebody_can_move_partial",
    "c45_sleepers_are_woken_partial",
    "c45_a_call_needs_few_steps_partial",
    "c45_throwing_callback_refuted",
    "c45_two_starters_refuted"
   ],
   "note": "Proved: callbacks only while started, stop after throw, no deadlock and bounded steps for one starting and one stopping thread. Refuted: hang if a callback throws during stop(), and with two starters."
  },
  {
   "property": "C46",
   "status": "partial",
   "theorems": [
    "c46_threads_all_come_back_refuted",
    "c46_start_returns_refuted",
    "c46_lost_at_most_partial",
    "c46_patient_callers",
    "c46_where_partial",
    "c46_where_all_but_lost_partial",
    "c46_at_rest_partial",
    "c46_all_back_partial",
    "c46_atomic_partial",
    "c46_one_place",
    "c46_start_at_rest",
    "c46_who_waits_partial"
   ],
   "note": "False of the code: refuted (timedStart receives a runner whose thread has not finished, times out in Thread::timedWait and drops the runner; then start() can wait forever). Proved: each TimedOut start loses at most one thread; as long as no start has timed out (e.g. all use FOREVER) the pool is linearizable without loss and every thread is in the queue, working or held by a guard."
  },
  {
   "property": "C47",
   "status": "proved",
   "theorems": [
    "c47_atomic",
    "c47_each_task_once",
    "c47_one_task_per_thread",
    "c47_guard_waits",
    "c47_who_waits",
    "c47_bounded_work"
   ],
   "note": ""
  },
  {
   "property": "C48",
   "status": "partial",
   "theorems": [
    "c48_create_cleans_up",
    "c48_create_succeeds",
    "c48_destroy_after_use_partial",
    "c48_destroy_after_use_refuted",
    "c48_huge_maxThreads_refuted"
   ],
   "note": "Cleanup of create proved at every failure point for maxThreads < 2^61 (refuted for 2^61+1: the size wraps and an exception leaves create). destroy proved to release everything after any use in which no start timed out; refuted otherwise (lost runner of C46)."
  },
  {
   "property": "C49",
   "status": "partial",
   "theorems": [
    "c49_priority_higher_than_partial",
    "c49_zero_difference",
    "c49_no_overflow_refuted",
    "c49_normal_priority_partial",
    "c49_normal_strictly_between_refuted"
   ],
   "note": "Proved whenever base +/- d fits in int; refuted otherwise (signed overflow). min < normal < max proved for ranges with a middle, refuted for StdCpp (0,0)."
  },
  {
   "property": "C50",
   "status": "partial",
   "theorems": [
    "c50_posix_total",
    "c50_posix_monotone_partial",
    "c50_posix_monotone_refuted",
    "c50_windows_total",
    "c50_windows_monotone",
    "c50_windows_ends_and_middle",
    "c50_tables_are_defined",
    "c50_posix_defined_iff",
    "c50_windows_defined_iff"
   ],
   "note": "Totality, Windows monotonicity proved for all ranges; POSIX monotonicity proved when the process's own priority is below the SCHED_RR range, refuted otherwise."
  },
  {
   "property": "C51",
   "status": "proved",
   "theorems": [
    "c51_itron_mutex_is_atomic_and_recursive",
    "c51_blocked_only_by_owner",
    "c51_calls_in_progress_end"
   ],
   "note": ""
  },
  {
   "property": "C52",
   "status": "proved",
   "theorems": [
    "c52_facade_guards",
    "c52_facade_deterministic"
   ],
   "note": ""
  },
  {
   "property": "C53",
   "status": "partial",
   "theorems": [
    "c53_deque_debug_catches_misuse_partial",
    "c53_out_of_ring_iterator_refuted"
   ],
   "note": "Proved for every position inside the ring; refuted for iterators that left the ring (begin()+7 in a ring of 5)."
  },
  {
   "property": "C54",
   "status": "partial",
   "theorems": [
    "c54_copy_into_new_object_partial",
    "c54_assigning_an_element_refuted"
   ],
   "note": "Proved for copies into objects that are in no list; refuted for assignment to an element that is in a list (the implicit operator= copies the links)."
  },
  {
   "property": "C55",
   "status": "proved",
   "theorems": [
    "c55_task_priority",
    "c55_default_restored"
   ],
   "note": ""
  },
  {
   "property": "C56",
   "status": "partial",
   "theorems": [
    "c56_itron_event_flag_is_atomic_partial",
    "c56_waits_only_while_condition_false_partial",
    "c56_calls_in_progress_end",
    "c56_narrow_flgptn_refuted"
   ],
   "note": "Proved for every schedule when FLGPTN is at least as wide as unsigned int; refuted for every narrower FLGPTN (setOne returns OK and sets nothing). Time-outs below -1, which the kernel refuses, are excluded."
  },
  {
   "property": "C57",
   "status": "partial",
   "theorems": [
    "c57_itron_thread_is_atomic",
    "c57_runs_at_its_priority",
    "c57_nobody_is_left_waiting",
    "c57_calls_in_progress_end",
    "c57_destroy_waits_and_returns",
    "c57_try_wait_does_not_block_refuted"
   ],
   "note": "Atomicity, exactly-once runs, priorities, progress and destroy proved for all schedules; refuted: tryWait and timed waits can block through a whole further run (waitUntilDormant has no limit). Time-outs below -1, which the kernel refuses, are excluded."
  },
  {
   "property": "C58",
   "status": "partial",
   "theorems": [
    "c58_win_timer_atomic",
    "c58_win_calls_never_wait",
    "c58_win_call_steps",
    "c58_win_one_callback_per_start",
    "c58_win_started_timer_can_fire",
    "c58_win_at_rest",
    "c58_win_one_shot_comes_to_rest",
    "c58_win_periodic_exact",
    "c58_win_after_stop_partial",
    "c58_win_one_shot_rounds_partial",
    "c58_win_stopped_timer_is_silent_refuted",
    "c58_win_off_after_stop_refuted",
    "c58_win_stop_prevents_the_callback_refuted"
   ],
   "note": "Atomicity, non-blocking calls, callback counts and (periodic) exactness proved for all schedules; one-shot: the behaviour after stop and the round structure are proved when the timer is never restarted while a callback is due or running, and refuted otherwise; refuted: isStarted() false right after stop(), stop() prevents a due callback."
  },
  {
   "property": "C59",
   "status": "partial",
   "theorems": [
    "c59_win_destroy_safe_partial",
    "c59_win_destroy_safe_refuted",
    "c59_win_destroy_while_running_refuted",
    "c59_win_self_restart_unsafe"
   ],
   "note": "Proved when the timer is off and its callbacks are over (periodic: have begun) at destroy; refuted in general: use after free by a callback that is due, by the one-shot callback's unlock, and by a callback that restarts the timer."
  },
  {
   "property": "C60",
   "status": "partial",
   "theorems": [
    "c60_itron_pools_linearizable",
    "c60_itron_pools_no_leak",
    "c60_itron_pools_no_deadlock",
    "c60_itron_pools_bounded",
    "c60_itron_pools_without_mutex_refuted",
    "c60_itron_blocks_fit",
    "c60_itron_too_small",
    "c60_itron_required_one",
    "c60_itron_required_iff",
    "c60_itron_required_exact",
    "c60_itron_required_refuted",
    "c60_std_required_partial",
    "c60_std_required_refuted"
   ],
   "note": "Itron table proved in full given the factory's mutex (refuted without it); required size: proved for n = 1 and for macros with TSZ_MPF(n) >= n TSZ_MPF(1), refuted otherwise; StdCpp: proved when the product fits in size_t, refuted otherwise."
  },
  {
   "property": "C61",
   "status": "partial",
   "theorems": [
    "c61_itron_current",
    "c61_itron_owns",
    "c61_itron_no_leak",
    "c61_itron_distinct",
    "c61_itron_full",
    "c61_itron_pool_suffices",
    "c61_itron_no_deadlock",
    "c61_itron_bounded",
    "c61_std_current_partial",
    "c61_std_current_calm_partial",
    "c61_std_current_refuted",
    "c61_std_dangling_refuted",
    "c61_std_owns",
    "c61_std_no_leak",
    "c61_std_distinct",
    "c61_std_no_deadlock",
    "c61_std_bounded"
   ],
   "note": "Itron: proved in full. StdCpp/Posix/Windows: ownership, leaks, distinctness, progress proved in full; getCurrentThread proved when no thread gets an id that a destroy has joined but not yet erased (in particular when no thread begins during a destroy), refuted otherwise (null for a running thread; a dangling pointer)."
  },
  {
   "property": "C62",
   "status": "partial",
   "theorems": [
    "c62_objects_linearizable",
    "c62_flags_mutexes_linearizable",
    "c62_objects_no_leak",
    "c62_tick_needs_start",
    "c62_no_tick_after_stop",
    "c62_callback_timer_exists",
    "c62_callback_timer_exists_smp_refuted",
    "c62_objects_no_deadlock",
    "c62_objects_bounded"
   ],
   "note": "Proved in full for kernels whose handlers have precedence over tasks (uITRON on one processor); event flags and mutexes proved in full also on several processors; that a timer exists while its callback runs is refuted on several processors."
  },
  {
   "property": "C63",
   "status": "partial",
   "theorems": [
    "c63_std_create_clean_partial",
    "c63_std_create_success",
    "c63_std_create_never_crashes_refuted",
    "c63_std_create_null_leaves_nothing_refuted",
    "c63_win_create_clean_partial",
    "c63_win_create_success",
    "c63_win_create_never_crashes_refuted",
    "c63_std_no_deadlock",
    "c63_std_deadlock_is_a_circle",
    "c63_win_no_deadlock_partial",
    "c63_win_callbacks_may_create_refuted",
    "c63_no_callback_of_a_deleted_timer",
    "c63_bounded"
   ],
   "note": "create: proved when the timer's thread (event flag) can be created and given its priority; refuted otherwise (null dereference; timer and thread lost). Locking: StdCpp proved for every discipline without circles of destroying callbacks; Windows proved when callbacks do not use the factory, refuted as soon as a callback creates a timer."
  },
  {
   "property": "C64",
   "status": "partial",
   "theorems": [
    "c64_vector_no_exceptions_partial",
    "c64_deque_no_exceptions_partial",
    "c64_vector_misuse_ends_the_program",
    "c64_deque_misuse_ends_the_program_partial",
    "c64_array_at",
    "c64_vector_without_handler_refuted",
    "c64_deque_without_handler_refuted"
   ],
   "note": "proved with an assertion handler that never returns; without one the calls go on: refuted (vector: undefined behaviour, deque: all elements lost)"
  },
  {
   "property": "C65",
   "status": "partial",
   "theorems": [
    "c65_stdcpp_queue_is_linearizable",
    "c65_stdcpp_no_spurious_error",
    "c65_stdcpp_no_deadlock",
    "c65_stdcpp_calls_come_to_an_end",
    "c65_itron_queue_is_linearizable",
    "c65_itron_no_spurious_error",
    "c65_itron_no_deadlock",
    "c65_itron_calls_come_to_an_end",
    "c65_stdcpp_ignored_lock_failure_refuted",
    "c65_itron_ignored_lock_failure_refuted"
   ],
   "note": "proved as long as lock() on the ring buffer's own mutex does not fail (and time-outs are >= -1 on Itron); one such failure, ignored by LockGuard, lets a receiver pop an empty queue: refuted"
  },
  {
   "property": "C66",
   "status": "partial",
   "theorems": [
    "c66_event_flag_not_early",
    "c66_mutex_not_early",
    "c66_queue_not_early",
    "c66_event_flag_not_late",
    "c66_mutex_not_late",
    "c66_queue_within_twice_the_limit_partial",
    "c66_only_sender_in_time",
    "c66_only_receiver_in_time",
    "c66_queue_within_the_limit_refuted",
    "c66_event_flag_clock_goes_on",
    "c66_mutex_clock_goes_on",
    "c66_queue_clock_goes_on"
   ],
   "note": "lower bounds and the limits of lock and wait calls proved in full (the mutex below the platform's nesting limit); timedSend/timedReceive proved within twice the limit, and within the limit for a lone sender/receiver; within the limit in general: refuted"
  },
  {
   "property": "C67",
   "status": "partial",
   "theorems": [
    "c67_never_early",
    "c67_on_time",
    "c67_not_late",
    "c67_kth_callback",
    "c67_fixed_rate_refuted",
    "c67_destroy_waits_only_for_the_callback",
    "c67_one_shot_calls_take_no_time_partial",
    "c67_periodic_calls_take_no_time_partial",
    "c67_periodic_start_waits_only_for_the_callback_partial",
    "c67_clock_goes_on"
   ],
   "note": "never early, on time, none missed, k-th callback, destroy: proved in full; start/stop take no time: proved under the conditions of C43/C45 (without them they can hang, refuted there); firing every period whatever the callback takes: refuted (periods and callback durations add up)"
  },
  {
   "property": "C68",
   "status": "partial",
   "theorems": [
    "c68_itron_pools_linearizable",
    "c68_itron_blocks",
    "c68_itron_pools_apart",
    "c68_itron_null_only_if_full",
    "c68_itron_no_leak",
    "c68_itron_no_deadlock",
    "c68_itron_bounded",
    "c68_itron_without_mutex_refuted",
    "c68_std_linearizable",
    "c68_std_blocks_partial",
    "c68_std_no_deadlock",
    "c68_std_size_refuted",
    "c68_std_memory_refuted",
    "c68_std_destroy_refuted"
   ],
   "note": "Itron: proved in full (two creates racing when the factory has no mutex: refuted); StdCpp: non-overlap, linearizability and progress proved; pool size, given memory and release on destroy: refuted (malloc and free, sizes and addresses ignored)"
  },
  {
   "property": "C69",
   "status": "partial",
   "theorems": [
    "c69_attributes_linearizable_partial",
    "c69_attributes_linearizable_refuted",
    "c69_attributes_linearizable_loose",
    "c69_inherited_value_was_current",
    "c69_initial_priority_constant",
    "c69_initial_priority_as_given",
    "c69_create_gives_new_thread",
    "c69_priority_in_range",
    "c69_never_throws",
    "c69_native_priority_partial",
    "c69_native_priority_refuted",
    "c69_inherit_is_out_of_range",
    "c69_no_data_race",
    "c69_no_deadlock",
    "c69_failed_create_leaves_nothing",
    "c69_bounded"
   ],
   "note": "atomic attributes: proved if a thread that inherits has its priority set by itself only, refuted otherwise (then all but the inherited value is as specified, and that was the caller's priority at some time during the call); native priority: proved unless the system refuses one, refuted then; the rest in full. destroy and setPriorityRange with live threads are not modelled"
  },
  {
   "property": "C70",
   "status": "proved",
   "theorems": [
    "c70_thread_no_data_race",
    "c70_thread_is_atomic",
    "c70_thread_nobody_is_left_waiting",
    "c70_thread_calls_end",
    "c70_thread_destroy_ends_it",
    "c70_timer_no_data_race",
    "c70_one_shot_is_atomic",
    "c70_periodic_is_atomic",
    "c70_started_timer_fires",
    "c70_after_stop",
    "c70_undisturbed_calls_return",
    "c70_starts_alone_return",
    "c70_one_starter_one_stopper_return",
    "c70_one_shot_comes_to_rest",
    "c70_destroyed_timer_is_silent",
    "c70_destroy_returns"
   ],
   "note": ""
  },
  {
   "property": "C71",
   "status": "partial",
   "theorems": [
    "c71_requests_reach_the_platform_partial",
    "c71_destructions_reach_the_platform_partial",
    "c71_itron_has_no_one_shot_timer_refuted",
    "c71_init_again_changes_nothing",
    "c71_priorities_are_those_of_the_first_init",
    "c71_posix_range_is_lost",
    "c71_fixed_priorities",
    "c71_double_threads",
    "c71_destroyed_by_its_maker_partial",
    "c71_destroyed_by_its_maker_refuted",
    "c71_second_range_is_ignored_refuted",
    "c71_posix_range_lost_refuted"
   ],
   "note": "Proved for every class a platform serves; refuted: uITRON's init registers no one-shot timer factory (creation fails an assertion, or silently uses the previous platform's), the range of a second init is ignored (and lost for ever if pthread_getschedparam fails in the first), an object outliving a change of platform is handed to a factory that did not make it. Factory constructors are assumed not to throw."
  },
  {
   "property": "C72",
   "status": "partial",
   "theorems": [
    "c72_thread_double",
    "c72_timer_double",
    "c72_blank_doubles",
    "c72_conversation",
    "c72_locks_released",
    "c72_fifo_partial",
    "c72_careful_programs_partial",
    "c72_send_on_full_loses_all_refuted",
    "c72_receive_on_empty_is_undefined_refuted"
   ],
   "note": "Doubles and lock nesting proved in full. FIFO, bound and absence of undefined behaviour proved when the event flag's waits answer an error, and for programs that never meet a full or empty queue whatever the waits answer; refuted with the library's own doubles: a send to a full queue returns OK and loses every message, a receive on an empty one is undefined behaviour. Copying a message does not throw here."
  },
  {
   "property": "C73",
   "status": "partial",
   "theorems": [
    "c73_tasks_run_once_in_order",
    "c73_starts_succeed_partial",
    "c73_no_undefined_behaviour_partial",
    "c73_destroys_no_thread_twice_partial",
    "c73_destroys_every_thread_partial",
    "c73_guards",
    "c73_destroy_is_undefined_refuted",
    "c73_one_start_too_many_is_undefined_refuted"
   ],
   "note": "Exactly-once and order proved for any waits (timedLock answering OK); absence of undefined behaviour and destruction proved when the waits answer an error; refuted with the library's own doubles: destroy is always undefined behaviour, so is the start after the last free thread. Creation succeeds (failures: C48), tasks do not throw nor use the pool."
  },
  {
   "property": "C74",
   "status": "proved",
   "theorems": [
    "c74_same_traces",
    "c74_atomic",
    "c74_atomic_strict",
    "c74_patient_callers",
    "c74_each_task_once",
    "c74_guard_waits",
    "c74_queue_memory",
    "c74_who_waits",
    "c74_what_calls_wait_for",
    "c74_all_back",
    "c74_bounded_work"
   ],
   "note": ""
  },
  {
   "property": "C75",
   "status": "partial",
   "theorems": [
    "c75_right_handler",
    "c75_unhandled",
    "c75_stop_threw",
    "c75_getters",
    "c75_quiet_handler",
    "c75_quiet_unhandled",
    "c75_null_not_called_partial",
    "c75_null_is_called_refuted",
    "c75_settled",
    "c75_pool_set_partial",
    "c75_pool_sets_race_refuted"
   ],
   "note": "the choice of the handler, the message, at most one call, the getters and the drop rule are proved for all schedules; that null is never called is false (c75_null_is_called_refuted: the pointer is tested and read again) and proved when no handler is set to null during the dispatch it matters to; the pool's loop is right when nobody else sets a handler of the pool meanwhile, and two such calls may leave threads with different handlers for good (c75_pool_sets_race_refuted)"
  },
  {
   "property": "C76",
   "status": "partial",
   "theorems": [
    "c76_queue_accesses",
    "c76_queue_no_race",
    "c76_event_flag_accesses",
    "c76_event_flag_no_race",
    "c76_itron_mutex_accesses",
    "c76_itron_mutex_no_race",
    "c76_pool_accesses",
    "c76_pool_no_race",
    "c76_mutex_accesses",
    "c76_mutex_no_race_partial",
    "c76_mutex_race_refuted"
   ],
   "note": "proved for MessageQueue, StdCppEventFlag, ItronMutex and ThreadPool for all schedules; for StdCppMutex it is proved when threads unlock only what they hold and false otherwise (c76_mutex_race_refuted: unlock() reads m_lockingCount without the lock to return NotLocked)"
  },
  {
   "property": "C77",
   "status": "partial",
   "theorems": [
    "c77_thread_not_early",
    "c77_thread_not_late",
    "c77_thread_clock_goes_on",
    "c77_pool_not_early",
    "c77_guard_wait_in_time",
    "c77_start_within_twice_the_limit_partial",
    "c77_only_starter_in_time",
    "c77_pool_clock_goes_on",
    "c77_start_within_the_limit_refuted"
   ],
   "note": "lower bounds, Thread::timedWait and WaitGuard::timedWait proved in full; timedStart proved within twice its limit, and within the limit when only one agent starts tasks; within the limit in general: refuted (the two waits of timedReceive, as in C66). The join of the chosen thread takes no time: it is already on its way out. The uITRON and Windows threads have no clock here."
  },
  {
   "property": "C78",
   "status": "partial",
   "theorems": [
    "c78_assertion_means_misuse",
    "c78_what_is_caught_partial",
    "c78_null_iterator_caught",
    "c78_null_iterator_in_release_builds",
    "c78_erase_end_caught_refuted",
    "c78_insert_twice_caught_refuted"
   ],
   "note": "An assertion never fails on a legal call and never after a change (swap, which has no precondition a caller could violate, left out); exactly what is caught is characterised (iff): empty lists, self-splice and splicing from end(), besides singular iterators. Refuted: erase(end()) of a list that is not empty and inserting an element that is in a list already go unnoticed and damage the list."
  },
  {
   "property": "C79",
   "status": "proved",
   "theorems": [
    "c79_atomic",
    "c79_atomic_patient",
    "c79_each_task_once",
    "c79_guard_waits",
    "c79_queue_memory",
    "c79_who_waits",
    "c79_bounded_work",
    "c79_all_back",
    "c79_all_back_patient"
   ],
   "note": ""
  },
  {
   "property": "C80",
   "status": "proved",
   "theorems": [
    "c80_vector_copies_exact",
    "c80_deque_copies_exact",
    "c80_vector_leaves_alone",
    "c80_deque_leaves_alone",
    "c80_left_alone_keeps_its_value",
    "c80_vector_history_copies",
    "c80_deque_history_copies",
    "c80_vector_history_leaves_alone",
    "c80_deque_history_leaves_alone",
    "c80_deque_insert_copies_at_most_half",
    "c80_deque_erase_copies_at_most_half",
    "c80_vector_insert_at_end",
    "c80_deque_insert_at_ends",
    "c80_deque_never_costlier",
    "c80_deque_push_keeps_references",
    "c80_inserting_nothing_still_copies"
   ],
   "note": ""
  },
  {
   "property": "C81",
   "status": "proved",
   "theorems": [
    "c81_atomic",
    "c81_atomic_patient",
    "c81_each_task_once",
    "c81_guard_waits",
    "c81_queue_memory",
    "c81_who_waits",
    "c81_bounded_work",
    "c81_all_back",
    "c81_all_back_patient"
   ],
   "note": ""
  },
  {
   "property": "C82",
   "status": "partial",
   "theorems": [
    "c82_mutex_not_early",
    "c82_mutex_not_late",
    "c82_mutex_clock_goes_on",
    "c82_event_flag_not_early",
    "c82_event_flag_not_late",
    "c82_event_flag_clock_goes_on",
    "c82_thread_not_early",
    "c82_thread_not_late_partial",
    "c82_thread_clock_goes_on",
    "c82_thread_not_late_refuted"
   ],
   "note": "Mutex and EventFlag proved in full; Thread: lower bounds and progress of the clock proved in full, the upper bound when no start is in progress together with a timedWait; without that refuted: timedWait that has seen EV_FINISHED polls until the task is dormant, with no limit, through a whole further run if the thread is started in between (as in C57)."
  },
  {
   "property": "C83",
   "status": "partial",
   "theorems": [
    "c83_never_early",
    "c83_returned_as_given",
    "c83_on_time",
    "c83_one_callback_per_period",
    "c83_clock_goes_on",
    "c83_start_when_started_does_nothing_refuted"
   ],
   "note": "everything proved in full except that start() on a started timer does nothing, which is refuted: sta_cyc on a started cyclic handler (without TA_PHS) sets its next activation anew, so a timer that is started again within each period never fires."
  },
  {
   "property": "C84",
   "status": "partial",
   "theorems": [
    "c84_never_early_partial",
    "c84_as_many_starts_as_callbacks",
    "c84_on_time_partial",
    "c84_one_callback_per_period",
    "c84_clock_goes_on",
    "c84_never_early_refuted"
   ],
   "note": "PeriodicTimer proved in full; OneShotTimer: the bound on the number of callbacks and the progress of the clock proved in full, the times when the timer is never restarted while a callback is due or running (never_restarted_early); without that refuted: the end of the callback switches off the timer started during it, whose time runs on and expires too early for the next start (as in C58)."
  },
  {
   "property": "C85",
   "status": "partial",
   "theorems": [
    "c85_std_timeout_partial",
    "c85_std_timeout_32",
    "c85_std_timeout_refuted",
    "c85_std_timer_partial",
    "c85_std_sleep_partial",
    "c85_std_never_longer",
    "c85_std_longest_refuted",
    "c85_itron_timeout_partial",
    "c85_itron_timeout_refused",
    "c85_itron_timeout_refuted",
    "c85_itron_sleep_partial",
    "c85_itron_period_partial",
    "c85_itron_period_refuted",
    "c85_windows_timer"
   ],
   "note": "Each conversion is proved exact precisely on a stated range (iff), and refuted beyond it: on StdCpp a timeout whose end in nanoseconds exceeds 63 bits is undefined behaviour and the longest timer times and sleeps are no time at all; on Itron with a TMO or RELTIM narrower than long some timeouts wait for ever or not at all, and a period is not the one getPeriodInMillis tells. The Windows timers are proved in full; the Windows waits are those of StdCpp."
  },
  {
   "property": "C86",
   "status": "partial",
   "theorems": [
    "c86_what_a_use_gets",
    "c86_forever_partial",
    "c86_never_dead_refuted",
    "c86_forever_refuted"
   ],
   "note": "What every use gets is proved exactly, at any time of the program's life; that it is never undefined behaviour is proved for destructors of static objects built after init and refuted for those built before (the factories, function-local statics of init, are gone by then, the pointers to them are not); FOREVER is right once Timeout.cpp has been initialized, in particular in main, and refuted before."
  },
  {
   "property": "C87",
   "status": "partial",
   "theorems": [
    "c87_handlers_are_refused_without_effect",
    "c87_threads_cannot_tell",
    "c87_handlers_never_wait",
    "c87_results",
    "c87_documented_results_partial",
    "c87_documented_results_refuted",
    "c87_lenient_kernel_refuted"
   ],
   "note": "That handlers' calls are refused without effect, never wait and do not show to the threads is proved for kernels whose get_tid and ref_mtx give E_CTX outside tasks, and refuted for kernels that answer for the interrupted task (unlock then takes a level from that task). That the results are documented is proved for lock and timedLock, refuted for tryLock (CalledByNonThread) and unlock (OtherError)."
  },
  {
   "property": "C88",
   "status": "partial",
   "theorems": [
    "c88_handlers_are_atomic_or_refused_partial",
    "c88_refused_calls_leave_no_trace",
    "c88_handlers_never_enter_a_wait",
    "c88_set_always_succeeds_refuted"
   ],
   "note": "Proved for FLGPTN at least as wide as Pattern (narrower: see C56), in both kinds of kernel, with a call that the kernel refuses taken as one step. That set, reset and getCurrentPattern always succeed is proved for kernels that accept them outside tasks and refuted for those that do not (OtherError, or the pattern 0)."
  }
 ]
}