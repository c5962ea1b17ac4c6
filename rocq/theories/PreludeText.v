(* The text of the preludes, mutate_ast_consumer.cc:49-73 and 253-473. *)
From Coq Require Import String Ascii List NArith ZArith Bool.
From Verif Require Import Base Clang.
Import ListNotations.
Local Open Scope string_scope.

(* mutate_ast_consumer.cc:261-263 and 389-391 *)
Definition words_required (num : nat) : nat := (num + 64 - 1) / 64.

(* mutate_ast_consumer.cc:49-56 *)
Definition prelude_start_comment : string :=
  "// DREDD PRELUDE START" ++ nl
  ++ "// If this has been inserted at an inappropriate place in a source file," ++ nl
  ++ "// declare a placeholder function with the following signature to" ++ nl
  ++ "// mandate where the prelude should be placed:" ++ nl
  ++ "//" ++ nl
  ++ "// void __dredd_prelude_start();" ++ nl
  ++ "//" ++ nl.

(* mutate_ast_consumer.cc:58-65 *)
Definition prelude_headers_cpp : string :=
  "#include <atomic>" ++ nl
  ++ "#include <cinttypes>" ++ nl
  ++ "#include <cstddef>" ++ nl
  ++ "#include <fstream>" ++ nl
  ++ "#include <functional>" ++ nl
  ++ "#include <sstream>" ++ nl
  ++ "#include <string>" ++ nl
  ++ nl.

(* mutate_ast_consumer.cc:67-73 *)
Definition prelude_headers_c : string :=
  "#include <inttypes.h>" ++ nl
  ++ "#include <stdatomic.h>" ++ nl
  ++ "#include <stdbool.h>" ++ nl
  ++ "#include <stdio.h>" ++ nl
  ++ "#include <stdlib.h>" ++ nl
  ++ "#include <string.h>" ++ nl.

(* mutate_ast_consumer.cc:253-345; num is the number of mutants of the file *)
Definition regular_prelude_cpp (initial num : nat) : string :=
  prelude_headers_cpp
  ++ nl
  ++ "#ifdef _MSC_VER" ++ nl
  ++ "#define thread_local __declspec(thread)" ++ nl
  ++ "#elif __APPLE__" ++ nl
  ++ "#define thread_local __thread" ++ nl
  ++ "#endif" ++ nl
  ++ nl
  ++ "static thread_local bool __dredd_some_mutation_enabled = true;" ++ nl
  ++ "static bool __dredd_enabled_mutation(int local_mutation_id) {" ++ nl
  ++ "  static thread_local bool initialized = false;" ++ nl
  ++ "  static thread_local uint64_t enabled_bitset[" ++ string_of_nat (words_required num) ++ "];" ++ nl
  ++ "  if (!initialized) {" ++ nl
  ++ "    bool some_mutation_enabled = false;" ++ nl
  ++ "    const char* dredd_environment_variable = std::getenv(""DREDD_ENABLED_MUTATION"");" ++ nl
  ++ "    if (dredd_environment_variable != nullptr) {" ++ nl
  ++ "      std::string contents(dredd_environment_variable);" ++ nl
  ++ "      while (true) {" ++ nl
  ++ "        size_t pos = contents.find("","");" ++ nl
  ++ "        std::string token = (pos == std::string::npos ? contents : contents.substr(0, pos));" ++ nl
  ++ "        if (!token.empty()) {" ++ nl
  ++ "          int value = std::stoi(token);" ++ nl
  ++ "          int local_value = value - " ++ string_of_nat initial ++ ";" ++ nl
  ++ "          if (local_value >= 0 && local_value < " ++ string_of_nat num ++ ") {" ++ nl
  ++ "            enabled_bitset[local_value / 64] |= (static_cast<uint64_t>(1) << (local_value % 64));" ++ nl
  ++ "            some_mutation_enabled = true;" ++ nl
  ++ "          }" ++ nl
  ++ "        }" ++ nl
  ++ "        if (pos == std::string::npos) {" ++ nl
  ++ "          break;" ++ nl
  ++ "        }" ++ nl
  ++ "        contents.erase(0, pos + 1);" ++ nl
  ++ "      }" ++ nl
  ++ "    }" ++ nl
  ++ "    initialized = true;" ++ nl
  ++ "    __dredd_some_mutation_enabled = some_mutation_enabled;" ++ nl
  ++ "  }" ++ nl
  ++ "  return (enabled_bitset[local_mutation_id / 64] & (static_cast<uint64_t>(1) << (local_mutation_id % 64))) != 0;" ++ nl
  ++ "}" ++ nl
  ++ nl.

(* mutate_ast_consumer.cc:347-373 *)
Definition tracking_prelude_cpp (initial num : nat) : string :=
  prelude_headers_cpp
  ++ nl
  ++ "static void __dredd_record_covered_mutants(int local_mutation_id, int num_mutations) {" ++ nl
  ++ "  static std::atomic<bool> already_recorded[" ++ string_of_nat num ++ "];" ++ nl
  ++ "  if (already_recorded[local_mutation_id].exchange(true)) return;" ++ nl
  ++ "  const char* dredd_tracking_environment_variable = std::getenv(""DREDD_MUTANT_TRACKING_FILE"");" ++ nl
  ++ "  if (dredd_tracking_environment_variable == nullptr) return;" ++ nl
  ++ "  std::ofstream output_file;" ++ nl
  ++ "  output_file.open(dredd_tracking_environment_variable, std::ios_base::app);" ++ nl
  ++ "  for (int i = 0; i < num_mutations; i++) {" ++ nl
  ++ "    output_file << (" ++ string_of_nat initial ++ " + local_mutation_id + i) << ""\n"";" ++ nl
  ++ "  }" ++ nl
  ++ "}" ++ nl
  ++ nl.

(* mutate_ast_consumer.cc:383-440 *)
Definition regular_prelude_c (initial num : nat) : string :=
  prelude_headers_c
  ++ nl
  ++ "#ifdef _MSC_VER" ++ nl
  ++ "#define thread_local __declspec(thread)" ++ nl
  ++ "#elif __APPLE__" ++ nl
  ++ "#define thread_local __thread" ++ nl
  ++ "#else" ++ nl
  ++ "#include <threads.h>" ++ nl
  ++ "#endif" ++ nl
  ++ nl
  ++ "static thread_local int __dredd_some_mutation_enabled = 1;" ++ nl
  ++ "static bool __dredd_enabled_mutation(int local_mutation_id) {" ++ nl
  ++ "  static thread_local int initialized = 0;" ++ nl
  ++ "  static thread_local uint64_t enabled_bitset[" ++ string_of_nat (words_required num) ++ "];" ++ nl
  ++ "  if (!initialized) {" ++ nl
  ++ "    int some_mutation_enabled = 0;" ++ nl
  ++ "    const char* dredd_environment_variable = getenv(""DREDD_ENABLED_MUTATION"");" ++ nl
  ++ "    if (dredd_environment_variable) {" ++ nl
  ++ "      char* temp = malloc(strlen(dredd_environment_variable) + 1);" ++ nl
  ++ "      strcpy(temp, dredd_environment_variable);" ++ nl
  ++ "      char* token;" ++ nl
  ++ "      token = strtok(temp, "","");" ++ nl
  ++ "      while(token) {" ++ nl
  ++ "        int value = atoi(token);" ++ nl
  ++ "        int local_value = value - " ++ string_of_nat initial ++ ";" ++ nl
  ++ "        if (local_value >= 0 && local_value < " ++ string_of_nat num ++ ") {" ++ nl
  ++ "          enabled_bitset[local_value / 64] |= ((uint64_t) 1 << (local_value % 64));" ++ nl
  ++ "          some_mutation_enabled = 1;" ++ nl
  ++ "        }" ++ nl
  ++ "        token = strtok(NULL, "","");" ++ nl
  ++ "      }" ++ nl
  ++ "      free(temp);" ++ nl
  ++ "    }" ++ nl
  ++ "    initialized = 1;" ++ nl
  ++ "    __dredd_some_mutation_enabled = some_mutation_enabled;" ++ nl
  ++ "  }" ++ nl
  ++ "  return enabled_bitset[local_mutation_id / 64] & ((uint64_t) 1 << (local_mutation_id % 64));" ++ nl
  ++ "}" ++ nl
  ++ nl.

(* mutate_ast_consumer.cc:442-466 *)
Definition tracking_prelude_c (initial num : nat) : string :=
  prelude_headers_c
  ++ nl
  ++ "static void __dredd_record_covered_mutants(int local_mutation_id, int num_mutations) {" ++ nl
  ++ "  static atomic_bool already_recorded[" ++ string_of_nat num ++ "];" ++ nl
  ++ "  if (atomic_exchange(&already_recorded[local_mutation_id], 1)) return;" ++ nl
  ++ "  const char* dredd_tracking_environment_variable = getenv(""DREDD_MUTANT_TRACKING_FILE"");" ++ nl
  ++ "  if (!dredd_tracking_environment_variable) return;" ++ nl
  ++ "  FILE* fp = fopen(dredd_tracking_environment_variable, ""a"");" ++ nl
  ++ "  for (int i = 0; i < num_mutations; i++) {" ++ nl
  ++ "    fprintf(fp, ""%d\n"", " ++ string_of_nat initial ++ " + local_mutation_id + i);" ++ nl
  ++ "  }" ++ nl
  ++ "  fclose(fp);" ++ nl
  ++ "}" ++ nl
  ++ nl.

(* mutate_ast_consumer.cc:375-381 and 468-473 *)
Definition prelude_text (c : ctx) (o : options) (initial num : nat) : string :=
  prelude_start_comment
  ++ match cpp c, track o with
     | true, false => regular_prelude_cpp initial num
     | true, true => tracking_prelude_cpp initial num
     | false, false => regular_prelude_c initial num
     | false, true => tracking_prelude_c initial num
     end.
