(** Model of src/abe/zerror.cpp and of the factories in utils/abecontext.cpp. *)
From Verif Require Import Base Utils Keystore Scheme.
From Coq Require Import ZArith List Ascii Bool.
Import ListNotations.
Open Scope Z_scope.

(** zerror.cpp L53-240 OpenABE_errorToString: the cases of the switch, in the order
    of the source; a code without a case gets the text of the default. *)
Definition error_texts : list (Z * str) := [
  (0, L "No error");
  (2, L "Invalid encryption context");
  (3, L "Invalid ciphertext");
  (4, L "Invalid group parameters");
  (5, L "Invalid global parameters");
  (6, L "Invalid key or parameters");
  (7, L "Out of memory");
  (8, L "Invalid function input");
  (9, L "Error occurred during encryption");
  (10, L "Unknown scheme");
  (11, L "Library not initialized or shut down due to critical error");
  (12, L "Secret parameters are not available");
  (13, L "Public parameters (MPK) are not available");
  (14, L "Functionality has not been implemented");
  (15, L "Buffer is too small for the requested operation");
  (17, L "Invalid group parameters ID");
  (16, L "Input value is in the wrong group");
  (18, L "Element not found in container");
  (19, L "Unable to complete secret sharing or recovery");
  (20, L "Invalid policy");
  (23, L "Provided wrong user parameters");
  (24, L "Specified length is invalid");
  (61, L "Specified an invalid authentication tag length");
  (25, L "Error occurred during serialization");
  (26, L "Input structure does not match library version");
  (27, L "Insufficient randomness returned");
  (28, L "Unexpected extra bytes were added beyond the size of the buffer");
  (29, L "Specified identifier is currently in use already");
  (30, L "Error occurred while parsing the key header. Perhaps, key type mismatch?");
  (31, L "Error occurred while parsing the ciphertext header");
  (32, L "Error occurred during decryption");
  (33, L "Could not perform verification due to invalid inputs or verification failed");
  (34, L "Divide by zero error occurred");
  (57, L "The order of the group was not specified");
  (36, L "The group or integer element was not initialized");
  (37, L "Error occurred during deserialization");
  (38, L "Invalid curve identifier");
  (39, L "Invalid scheme identifier");
  (40, L "The body of the key structure is malformed");
  (41, L "The body of the ciphertext is malformed");
  (42, L "A syntax error occurred during parsing of the input policy");
  (35, L "The CTR DRBG context was not initialized. Failed to call 'setSeed'");
  (43, L "The object was not initialized properly");
  (44, L "The pack type specified is invalid");
  (45, L "Invalid attribute structure specified");
  (46, L "Index is out of bounds");
  (47, L "Missing the sender's public key");
  (48, L "Missing the receiver's private key");
  (49, L "Missing the receiver's public key");
  (50, L "Missing authority ID in specified attribute");
  (51, L "Invalid attribute list specified");
  (52, L "Invalid range numbers specified");
  (53, L "Specified a mismatch of integer bits");
  (54, L "Specified a reserved/system prefix");
  (55, L "Invalid date specified as attribute");
  (56, L "Date specified is before unix epoch: January 1, 1970");
  (22, L "Error occurred during signing");
  (59, L "Error occurred during key generation");
  (60, L "Did not specify plaintext to encrypt or sign");
  (99, L "Unknown error") ].
Definition error_text (c : Z) : str :=
  match find (fun p => fst p =? c) error_texts with Some (_, t) => t | None => L "Unrecognized error code" end.

(** utils/abecontext.cpp L9-19 createContextABE (the message on standard output is
    left out) and L27-36 createContextABESchemeCPA; [None] is the null pointer. *)
Definition create_context_abe (id : Z) : option scheme :=
  if id =? CP_WATERS then Some CP else if id =? KP_GPSW then Some KP else None.
Definition create_scheme_cpa (id : Z) : option scheme :=
  match create_context_abe id with None => None | Some k => Some k end.
