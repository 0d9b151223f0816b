(** The registered documentation: the init functions of edlisp/builtin_*.go, copied entry by
    entry (names, parameters, examples, cross references, categories and texts). *)
From Coq Require Import ZArith List Strings.Byte.
From Verif Require Import Base Docs.
Import ListNotations.

(** edlisp/builtin_backward_char.go:35-63 *)
Definition doc_backward_char : function_doc := mkDoc (bs "backward-char")
  (bs "Move point backward by a specified number of characters")
  (bs "Moves the point backward by the specified number of characters. If no count is provided, moves backward by 1 character. The point is constrained to stay within buffer bounds - it cannot move before the beginning of the buffer.")
  [mkParam (bs "count") (bs "number") (bs "Number of characters to move backward (default: 1)") true]
  [
    mkExample (bs "Move backward by default amount (1 character)") (bs "goto-char 6; backward-char; point")
      (bs "Hello world") (bs "5"); 
    mkExample (bs "Move backward by specific count") (bs "goto-char 8; backward-char 3; point")
      (bs "Hello world") (bs "5")]
  [(bs "forward-char"); (bs "backward-word"); (bs "goto-char")]
  (bs "movement").
(** edlisp/builtin_backward_kill_word.go:58-86 *)
Definition doc_backward_kill_word : function_doc := mkDoc (bs "backward-kill-word")
  (bs "Delete text backward by a specified number of words")
  (bs "Deletes text from the current point backward by the specified number of words. A word is defined as a sequence of letter characters. The function follows the same word boundary logic as backward-word: it skips over non-word characters to find the end of each word, then deletes from the beginning of that word to the current point. If no count is provided, deletes backward by 1 word. The point moves to the beginning of the deleted region.")
  [mkParam (bs "count") (bs "number") (bs "Number of words to delete backward (default: 1)") true]
  [
    mkExample (bs "Delete one word backward") (bs "goto-char 17; backward-kill-word; buffer-substring 1 -1")
      (bs "Hello world test") (bs "Hello world "); 
    mkExample (bs "Delete multiple words backward") (bs "goto-char 25; backward-kill-word 2; buffer-substring 1 -1")
      (bs "Hello world test buffer content") (bs "Hello world ontent")]
  [(bs "kill-word"); (bs "backward-word"); (bs "delete-region"); (bs "kill-line")]
  (bs "editing").
(** edlisp/builtin_backward_word.go:45-73 *)
Definition doc_backward_word : function_doc := mkDoc (bs "backward-word")
  (bs "Move point backward by a specified number of words")
  (bs "Moves the point backward by the specified number of words. A word is defined as a sequence of letter characters. The function skips over non-word characters to find the end of each word, then moves to the beginning of that word. If no count is provided, moves backward by 1 word. The point cannot move before the beginning of the buffer.")
  [mkParam (bs "count") (bs "number") (bs "Number of words to move backward (default: 1)") true]
  [
    mkExample (bs "Move backward by default amount (1 word)") (bs "goto-char 15; backward-word; point")
      (bs "Hello world test") (bs "13"); 
    mkExample (bs "Move backward by specific count") (bs "goto-char 20; backward-word 2; point")
      (bs "Hello world test buffer") (bs "13")]
  [(bs "forward-word"); (bs "backward-char"); (bs "backward-kill-word"); (bs "mark-word")]
  (bs "movement").
(** edlisp/builtin_beginning_of_buffer.go:19-40 *)
Definition doc_beginning_of_buffer : function_doc := mkDoc (bs "beginning-of-buffer")
  (bs "Move point to the very beginning of the buffer")
  (bs "Moves the point to the very beginning of the buffer, which is always position 1. This is a simple navigation command that provides a quick way to jump to the start of any buffer content.")
  []
  [
    mkExample (bs "Move to beginning from any position") (bs "goto-char 20; beginning-of-buffer; point")
      (bs "Hello world
Second line
Third line") (bs "1"); 
    mkExample (bs "Move to beginning of empty buffer") (bs "beginning-of-buffer; point")
      (bs "") (bs "1")]
  [(bs "end-of-buffer"); (bs "beginning-of-line"); (bs "goto-char")]
  (bs "movement").
(** edlisp/builtin_beginning_of_line.go:36-57 *)
Definition doc_beginning_of_line : function_doc := mkDoc (bs "beginning-of-line")
  (bs "Move point to the beginning of the current line")
  (bs "Moves the point to the beginning of the current line. The beginning of a line is defined as the position immediately after a newline character, or the start of the buffer if on the first line. This function takes no arguments.")
  []
  [
    mkExample (bs "Move to beginning of second line") (bs "search-forward ""5""; beginning-of-line; point")
      (bs "1
3 5
7") (bs "3"); 
    mkExample (bs "Move to beginning from middle of line") (bs "goto-char 5; beginning-of-line; point")
      (bs "Hello world") (bs "1")]
  [(bs "end-of-line"); (bs "beginning-of-buffer"); (bs "goto-line")]
  (bs "movement").
(** edlisp/builtin_buffer_size.go:38-49 *)
Definition doc_buffer_size : function_doc := mkDoc (bs "buffer-size")
  (bs "Return the total number of characters in the buffer")
  (bs "Calculates the size of the buffer content in characters (bytes). The size includes all characters including newlines, spaces, and special characters. This is useful for determining buffer boundaries or calculating buffer statistics.")
  []
  [
    mkExample (bs "Get size of buffer with content") (bs "buffer-size")
      (bs "Hello world test buffer") (bs "23"); 
    mkExample (bs "Get size of empty buffer") (bs "buffer-size")
      (bs "") (bs "0")]
  [(bs "point-max"); (bs "point-min"); (bs "point")]
  (bs "buffer").
(** edlisp/builtin_buffer_substring.go:77-92 *)
Definition doc_buffer_substring : function_doc := mkDoc (bs "buffer-substring")
  (bs "Extract a portion of the buffer content between two positions")
  (bs "Extracts text from the buffer between the specified START and END positions. Positions are 1-based, where 1 is the first character. The extracted substring includes the character at START but excludes the character at END. If END is -1, extracts to the end of the buffer. Positions are automatically bounded to stay within the buffer.")
  [mkParam (bs "start") (bs "number") (bs "The starting position (1-based, inclusive)") false; mkParam (bs "end") (bs "number") (bs "The ending position (1-based, exclusive), or -1 for end of buffer") false]
  [
    mkExample (bs "Extract first 5 characters") (bs "buffer-substring 1 6")
      (bs "Hello world") (bs """Hello"""); 
    mkExample (bs "Extract from position to end") (bs "buffer-substring 7 -1")
      (bs "Hello world") (bs """world"""); 
    mkExample (bs "Extract empty range") (bs "buffer-substring 5 5")
      (bs "Hello world") (bs """""")]
  [(bs "buffer-size"); (bs "substring"); (bs "region-beginning"); (bs "region-end")]
  (bs "buffer").
(** edlisp/builtin_capitalize.go:51-64 *)
Definition doc_capitalize : function_doc := mkDoc (bs "capitalize")
  (bs "Capitalize the first character of a string")
  (bs "Converts the first character of STRING to uppercase and all remaining characters to lowercase. Returns an empty string if STRING is empty.")
  [mkParam (bs "string") (bs "string") (bs "The string to capitalize") false]
  [
    mkExample (bs "Capitalize lowercase text") (bs "capitalize ""hello world""")
      (bs "") (bs """Hello world"""); 
    mkExample (bs "Capitalize uppercase text") (bs "capitalize ""HELLO WORLD""")
      (bs "") (bs """Hello world""")]
  [(bs "upcase"); (bs "downcase")]
  (bs "string").
(** edlisp/builtin_concat.go:47-60 *)
Definition doc_concat : function_doc := mkDoc (bs "concat")
  (bs "Concatenate multiple strings")
  (bs "Concatenates zero or more strings into a single string. All arguments must be strings. Returns an empty string if no arguments are provided.")
  [mkParam (bs "strings") (bs "string") (bs "Zero or more strings to concatenate") false]
  [
    mkExample (bs "Concatenate two strings") (bs "concat ""Hello"" "" world""")
      (bs "") (bs """Hello world"""); 
    mkExample (bs "Concatenate multiple strings") (bs "concat ""Hello"" "" "" ""beautiful"" "" "" ""world""")
      (bs "") (bs """Hello beautiful world""")]
  [(bs "substring"); (bs "length")]
  (bs "string").
(** edlisp/builtin_current_column.go:64-76 *)
Definition doc_current_column : function_doc := mkDoc (bs "current-column")
  (bs "Return the column number of the current point position")
  (bs "Returns the horizontal position of the point within the current line. The column is 0-based, where column 0 is the first character of the line. Calculated by counting characters from the beginning of the current line (after the last newline) to the point position.")
  []
  [
    mkExample (bs "Get column at beginning of line") (bs "beginning-of-line; current-column")
      (bs "Hello world") (bs "0"); 
    mkExample (bs "Get column in middle of multi-line") (bs "goto-char 25; current-column")
      (bs "First line
Second line with content
Third line") (bs "14"); 
    mkExample (bs "Get column in single line") (bs "goto-char 6; current-column")
      (bs "Hello world") (bs "5")]
  [(bs "line-number-at-pos"); (bs "point"); (bs "beginning-of-line"); (bs "end-of-line")]
  (bs "position").
(** edlisp/builtin_delete_backward_char.go:49-77 *)
Definition doc_delete_backward_char : function_doc := mkDoc (bs "delete-backward-char")
  (bs "Delete characters backward from the current point position")
  (bs "Deletes the specified number of characters backward from the current point position. By default, deletes one character backward from the point. The point is moved to the beginning of the deleted region after deletion. If the count exceeds the available characters before the point, deletes up to the beginning of the buffer.")
  [mkParam (bs "count") (bs "number") (bs "Number of characters to delete backward (default: 1)") true]
  [
    mkExample (bs "Delete one character backward") (bs "forward-char; delete-backward-char")
      (bs "123") (bs "23"); 
    mkExample (bs "Delete multiple characters backward") (bs "forward-char 2; delete-backward-char 2")
      (bs "Hello") (bs "llo")]
  [(bs "delete-char"); (bs "backward-char"); (bs "delete-region"); (bs "kill-line")]
  (bs "editing").
(** edlisp/builtin_delete_char.go:47-75 *)
Definition doc_delete_char : function_doc := mkDoc (bs "delete-char")
  (bs "Delete characters starting at the current point position")
  (bs "Deletes the specified number of characters starting at the current point position. By default, deletes one character forward from the point. The point position remains unchanged after deletion. If the count exceeds the available characters, deletes up to the end of the buffer.")
  [mkParam (bs "count") (bs "number") (bs "Number of characters to delete (default: 1)") true]
  [
    mkExample (bs "Delete one character at point") (bs "goto-char 6; delete-char")
      (bs "Hello world") (bs "Helloworld"); 
    mkExample (bs "Delete multiple characters") (bs "delete-char 3")
      (bs "Hello") (bs "lo")]
  [(bs "delete-backward-char"); (bs "delete-region"); (bs "kill-line"); (bs "insert")]
  (bs "editing").
(** edlisp/builtin_delete_line.go:55-83 *)
Definition doc_delete_line : function_doc := mkDoc (bs "delete-line")
  (bs "Delete entire lines starting from the line containing the point")
  (bs "Deletes the specified number of complete lines starting from the line containing the current point. By default, deletes one line. When deleting multiple lines, includes the newline characters. After deletion, the point is positioned at the beginning of the line where deletion started.")
  [mkParam (bs "count") (bs "number") (bs "Number of lines to delete (default: 1)") true]
  [
    mkExample (bs "Delete one line") (bs "goto-char 15; delete-line")
      (bs "First line
Second line
Third line") (bs "First line
Third line"); 
    mkExample (bs "Delete multiple lines") (bs "goto-char 15; delete-line 2")
      (bs "First line
Second line
Third line
Fourth line") (bs "First line
Fourth line")]
  [(bs "kill-line"); (bs "delete-region"); (bs "beginning-of-line"); (bs "end-of-line")]
  (bs "editing").
(** edlisp/builtin_delete_region.go:48-63 *)
Definition doc_delete_region : function_doc := mkDoc (bs "delete-region")
  (bs "Delete the text between the mark and point")
  (bs "Deletes the text between the current mark and point positions. The region is defined by the mark and point, with the smaller position used as the start and the larger as the end. After deletion, the point is positioned at the beginning of the deleted region. If no mark is set, the behavior is undefined.")
  []
  [
    mkExample (bs "Delete selected region") (bs "goto-char 7; set-mark; goto-char 10; delete-region")
      (bs "Hello old world, this is a test.") (bs "Hello  world, this is a test.")]
  [(bs "set-mark"); (bs "mark"); (bs "point"); (bs "replace-region"); (bs "kill-line")]
  (bs "editing").
(** edlisp/builtin_downcase.go:45-58 *)
Definition doc_downcase : function_doc := mkDoc (bs "downcase")
  (bs "Convert string to lowercase")
  (bs "Converts all alphabetic characters in STRING to lowercase. Non-alphabetic characters remain unchanged.")
  [mkParam (bs "string") (bs "string") (bs "The string to convert to lowercase") false]
  [
    mkExample (bs "Convert mixed case to lowercase") (bs "downcase ""Hello World""")
      (bs "") (bs """hello world"""); 
    mkExample (bs "Convert with numbers") (bs "downcase ""TEST123""")
      (bs "") (bs """test123""")]
  [(bs "upcase"); (bs "capitalize")]
  (bs "string").
(** edlisp/builtin_end_of_buffer.go:20-41 *)
Definition doc_end_of_buffer : function_doc := mkDoc (bs "end-of-buffer")
  (bs "Move point to the very end of the buffer")
  (bs "Moves the point to the very end of the buffer, which is one position past the last character. This position allows for inserting text at the end of the buffer content.")
  []
  [
    mkExample (bs "Move to end from any position") (bs "goto-char 1; end-of-buffer; point")
      (bs "Hello world") (bs "12"); 
    mkExample (bs "Move to end of empty buffer") (bs "end-of-buffer; point")
      (bs "") (bs "1")]
  [(bs "beginning-of-buffer"); (bs "end-of-line"); (bs "goto-char")]
  (bs "movement").
(** edlisp/builtin_end_of_line.go:38-59 *)
Definition doc_end_of_line : function_doc := mkDoc (bs "end-of-line")
  (bs "Move point to the end of the current line")
  (bs "Moves the point to the end of the current line. The end of a line is defined as the position just before a newline character, or the end of the buffer if on the last line. This function takes no arguments.")
  []
  [
    mkExample (bs "Move to end of current line") (bs "search-forward ""T""; end-of-line; point")
      (bs "One
Two
Three") (bs "8"); 
    mkExample (bs "Move to end from beginning of line") (bs "beginning-of-line; end-of-line; point")
      (bs "Hello world") (bs "12")]
  [(bs "beginning-of-line"); (bs "end-of-buffer"); (bs "goto-line")]
  (bs "movement").
(** edlisp/builtin_exchange_point_and_mark.go:27-42 *)
Definition doc_exchange_point_and_mark : function_doc := mkDoc (bs "exchange-point-and-mark")
  (bs "Swap the positions of point and mark")
  (bs "Exchanges the current point position with the mark position, effectively moving the cursor to where the mark was while setting the mark to where the cursor was. This is useful for quickly moving between the two ends of a region or for reversing the direction of a region selection.")
  []
  [
    mkExample (bs "Exchange point and mark positions") (bs "goto-char 5; set-mark; goto-char 10; exchange-point-and-mark; point")
      (bs "Hello world test") (bs "Point moves from 10 to 5, mark moves from 5 to 10")]
  [(bs "set-mark"); (bs "mark"); (bs "point"); (bs "region-beginning"); (bs "region-end")]
  (bs "region").
(** edlisp/builtin_forward_char.go:38-66 *)
Definition doc_forward_char : function_doc := mkDoc (bs "forward-char")
  (bs "Move point forward by a specified number of characters")
  (bs "Moves the point forward by the specified number of characters. If no count is provided, moves forward by 1 character. The point is constrained to stay within buffer bounds - it cannot move beyond the end of the buffer or before the beginning.")
  [mkParam (bs "count") (bs "number") (bs "Number of characters to move forward (default: 1)") true]
  [
    mkExample (bs "Move forward by default amount (1 character)") (bs "goto-char 5; forward-char; point")
      (bs "Hello world") (bs "6"); 
    mkExample (bs "Move forward by specific count") (bs "goto-char 1; forward-char 3; point")
      (bs "Hello world") (bs "4")]
  [(bs "backward-char"); (bs "forward-word"); (bs "goto-char")]
  (bs "movement").
(** edlisp/builtin_forward_word.go:45-73 *)
Definition doc_forward_word : function_doc := mkDoc (bs "forward-word")
  (bs "Move point forward by a specified number of words")
  (bs "Moves the point forward by the specified number of words. A word is defined as a sequence of letter characters. The function skips over non-word characters to find the start of each word, then moves to the end of that word. If no count is provided, moves forward by 1 word. The point cannot move beyond the end of the buffer.")
  [mkParam (bs "count") (bs "number") (bs "Number of words to move forward (default: 1)") true]
  [
    mkExample (bs "Move forward by default amount (1 word)") (bs "goto-char 3; forward-word; point")
      (bs "Hello world test") (bs "6"); 
    mkExample (bs "Move forward by specific count") (bs "goto-char 1; forward-word 2; point")
      (bs "Hello world test buffer") (bs "12")]
  [(bs "backward-word"); (bs "forward-char"); (bs "kill-word"); (bs "mark-word")]
  (bs "movement").
(** edlisp/builtin_goto_char.go:36-76 *)
Definition doc_goto_char : function_doc := mkDoc (bs "goto-char")
  (bs "Move point to specified character position")
  (bs "Moves the point to the specified character position in the buffer. The position is 1-based, where position 1 is the beginning of the buffer. If the position is less than 1, the point moves to the beginning. If the position is greater than the buffer size plus 1, the point moves to the end. This function provides precise cursor positioning for text editing operations.")
  [mkParam (bs "position") (bs "number") (bs "1-based character position to move to") false]
  [
    mkExample (bs "Move to specific position in buffer") (bs "goto-char 7")
      (bs "Hello world, this is a test buffer.") (bs "Point moves to position 7 (after 'world')"); 
    mkExample (bs "Move to beginning of buffer") (bs "goto-char 1")
      (bs "Hello world") (bs "Point moves to position 1 (beginning)"); 
    mkExample (bs "Move beyond buffer end (clamped)") (bs "goto-char 100")
      (bs "Hello world") (bs "Point moves to position 12 (end of buffer)"); 
    mkExample (bs "Use with column calculation") (bs "goto-char 25; current-column")
      (bs "First line
Second line with content
Third line") (bs "Returns column 14 on second line")]
  [(bs "point"); (bs "goto-line"); (bs "beginning-of-buffer"); (bs "end-of-buffer"); (bs "current-column")]
  (bs "movement").
(** edlisp/builtin_goto_line.go:44-78 *)
Definition doc_goto_line : function_doc := mkDoc (bs "goto-line")
  (bs "Move point to the beginning of a specific line")
  (bs "Moves the point to the beginning of the specified line number. Line numbers are 1-based. If the line number is less than 1, moves to line 1. If the line number is greater than the total number of lines, moves to the last line. The point is positioned at the beginning of the target line.")
  [mkParam (bs "line-number") (bs "number") (bs "The line number to move to (1-based)") false]
  [
    mkExample (bs "Move to line 3 in a multi-line buffer") (bs "goto-line 3")
      (bs "Line 1: First line of text
Line 2: Second line of text
Line 3: Third line of text
Line 4: Fourth line of text") (bs "Point moves to beginning of line 3 (position 51)"); 
    mkExample (bs "Move to line beyond buffer end") (bs "goto-line 10")
      (bs "Line 1
Line 2
Line 3") (bs "Point moves to beginning of last line (line 3)"); 
    mkExample (bs "Move to line number less than 1") (bs "goto-line 0")
      (bs "Line 1
Line 2
Line 3") (bs "Point moves to beginning of first line (line 1)")]
  [(bs "goto-char"); (bs "beginning-of-line"); (bs "end-of-line"); (bs "line-number-at-pos")]
  (bs "movement").
(** edlisp/builtin_insert.go:24-52 *)
Definition doc_insert : function_doc := mkDoc (bs "insert")
  (bs "Insert text at the current point position")
  (bs "Inserts the given string at the current point position. The point is moved to after the inserted text. This is the basic function for adding text to the buffer.")
  [mkParam (bs "text") (bs "string") (bs "Text to insert into the buffer") false]
  [
    mkExample (bs "Insert text into empty buffer") (bs "insert ""hello, world""")
      (bs "") (bs "hello, world"); 
    mkExample (bs "Insert text at specific position") (bs "goto-char 6; insert "" beautiful""")
      (bs "hello world") (bs "hello beautiful world")]
  [(bs "delete-char"); (bs "replace-region"); (bs "kill-line")]
  (bs "editing").
(** edlisp/builtin_kill_line.go:66-94 *)
Definition doc_kill_line : function_doc := mkDoc (bs "kill-line")
  (bs "Delete text from the point to the end of line(s)")
  (bs "Deletes text from the current point to the end of the specified number of lines. For a single line (count=1), deletes from after the current point to the end of the line, preserving the character at the point. For multiple lines, deletes entire lines starting from the current point. The point position remains unchanged after the operation.")
  [mkParam (bs "count") (bs "number") (bs "Number of lines to kill (default: 1)") true]
  [
    mkExample (bs "Kill to end of current line") (bs "goto-char 8; kill-line")
      (bs "First line content
Second line content
Third line") (bs "First li
Second line content
Third line"); 
    mkExample (bs "Kill multiple lines") (bs "goto-char 1; kill-line 2")
      (bs "First line
Second line
Third line
Fourth line") (bs "Third line
Fourth line")]
  [(bs "delete-line"); (bs "delete-region"); (bs "end-of-line"); (bs "kill-word")]
  (bs "editing").
(** edlisp/builtin_kill_word.go:49-77 *)
Definition doc_kill_word : function_doc := mkDoc (bs "kill-word")
  (bs "Delete text forward by a specified number of words")
  (bs "Deletes text from the current point forward by the specified number of words. A word is defined as a sequence of letter characters. The function follows the same word boundary logic as forward-word: it skips over non-word characters to find the start of each word, then deletes to the end of that word. If no count is provided, deletes forward by 1 word. The point remains at its original position after deletion.")
  [mkParam (bs "count") (bs "number") (bs "Number of words to delete forward (default: 1)") true]
  [
    mkExample (bs "Delete one word forward from middle of word") (bs "goto-char 3; kill-word; buffer-substring 1 -1")
      (bs "Hello world test") (bs "He world test"); 
    mkExample (bs "Delete multiple words forward") (bs "goto-char 1; kill-word 2; buffer-substring 1 -1")
      (bs "Hello world test buffer content") (bs " test buffer content")]
  [(bs "backward-kill-word"); (bs "forward-word"); (bs "delete-region"); (bs "kill-line")]
  (bs "editing").
(** edlisp/builtin_length.go:43-56 *)
Definition doc_length : function_doc := mkDoc (bs "length")
  (bs "Get the length of a string")
  (bs "Returns the number of characters (bytes) in STRING. For empty strings, returns 0.")
  [mkParam (bs "string") (bs "string") (bs "The string whose length to calculate") false]
  [
    mkExample (bs "Get length of text") (bs "length ""Hello world""")
      (bs "") (bs "11"); 
    mkExample (bs "Get length of empty string") (bs "length """"")
      (bs "") (bs "0")]
  [(bs "substring"); (bs "concat")]
  (bs "string").
(** edlisp/builtin_line_number_at_pos.go:69-81 *)
Definition doc_line_number_at_pos : function_doc := mkDoc (bs "line-number-at-pos")
  (bs "Return the line number of the current point position")
  (bs "Returns the vertical position of the point within the buffer. Line numbers are 1-based, where line 1 is the first line. Lines are separated by newline characters. Calculated by counting newlines from the beginning of the buffer to the current point position.")
  []
  [
    mkExample (bs "Get line number at beginning") (bs "line-number-at-pos")
      (bs "Hello world") (bs "1"); 
    mkExample (bs "Get line number on second line") (bs "goto-char 15; line-number-at-pos")
      (bs "First line
Second line
Third line") (bs "2"); 
    mkExample (bs "Get line number on third line") (bs "goto-char 25; line-number-at-pos")
      (bs "First line
Second line
Third line") (bs "3")]
  [(bs "current-column"); (bs "point"); (bs "goto-line"); (bs "beginning-of-line"); (bs "end-of-line")]
  (bs "position").
(** edlisp/builtin_looking_at.go:52-86 *)
Definition doc_looking_at : function_doc := mkDoc (bs "looking-at")
  (bs "Check if text at current position matches a pattern")
  (bs "Checks if the text at the current point matches the given pattern. Returns the symbol 't' if the pattern matches at the current position, 'nil' otherwise. The pattern can be either a literal string or a regular expression. If the pattern is a valid regular expression, it uses regexp matching starting at the current position. If the pattern is not a valid regexp, it falls back to literal string matching. Does not move the point or modify the buffer in any way.")
  [mkParam (bs "pattern") (bs "string") (bs "Pattern to match (literal string or regular expression)") false]
  [
    mkExample (bs "Check literal string match") (bs "goto-char 7; looking-at ""world""")
      (bs "Hello world test buffer") (bs "Returns 't' (pattern matches at position 7)"); 
    mkExample (bs "Check regex pattern match") (bs "goto-char 7; looking-at ""[0-9]+""")
      (bs "Hello 123 world") (bs "Returns 't' (digits match at position 7)"); 
    mkExample (bs "Pattern does not match") (bs "goto-char 7; looking-at ""test""")
      (bs "Hello world test") (bs "Returns 'nil' (pattern not at position 7)")]
  [(bs "looking-back"); (bs "re-search-forward"); (bs "string-match")]
  (bs "search").
(** edlisp/builtin_looking_back.go:55-89 *)
Definition doc_looking_back : function_doc := mkDoc (bs "looking-back")
  (bs "Check if text before current position matches a pattern")
  (bs "Checks if the text before the current point matches the given pattern ending at the current position. Returns the symbol 't' if the pattern matches, 'nil' otherwise. The pattern can be either a literal string or a regular expression. For literal strings, checks if the text before point ends with the given string. For regular expressions, checks if there's a match that ends exactly at the current point. Does not move the point or modify the buffer in any way.")
  [mkParam (bs "pattern") (bs "string") (bs "Pattern to match (literal string or regular expression)") false]
  [
    mkExample (bs "Check literal string match before point") (bs "goto-char 12; looking-back ""world""")
      (bs "Hello world test buffer") (bs "Returns 't' (text before position 12 ends with 'world')"); 
    mkExample (bs "Check regex pattern match before point") (bs "goto-char 10; looking-back ""[0-9]+""")
      (bs "Hello 123 world") (bs "Returns 't' (digits end at position 10)"); 
    mkExample (bs "Pattern does not match before point") (bs "goto-char 8; looking-back ""test""")
      (bs "Hello world test") (bs "Returns 'nil' (text before position 8 doesn't end with 'test')")]
  [(bs "looking-at"); (bs "re-search-backward"); (bs "string-match")]
  (bs "search").
(** edlisp/builtin_mark.go:47-58 *)
Definition doc_mark : function_doc := mkDoc (bs "mark")
  (bs "Return the current position of the mark in the buffer")
  (bs "Returns the current mark position in the buffer. The mark is a secondary position that works with the point to define text regions. Like the point, it is 1-based and can be anywhere from point-min to point-max. The mark is typically set using set-mark or set-mark-command.")
  []
  [
    mkExample (bs "Get mark position") (bs "set-mark 5; mark")
      (bs "Hello world") (bs "5"); 
    mkExample (bs "Get mark after set-mark-command") (bs "goto-char 3; set-mark-command; mark")
      (bs "Hello world") (bs "3")]
  [(bs "point"); (bs "set-mark"); (bs "set-mark-command"); (bs "region-beginning"); (bs "region-end"); (bs "exchange-point-and-mark")]
  (bs "position").
(** edlisp/builtin_mark_line.go:53-81 *)
Definition doc_mark_line : function_doc := mkDoc (bs "mark-line")
  (bs "Mark one or more complete lines")
  (bs "Marks one or more lines starting from the current line. This function creates a region that encompasses complete lines, including their newline characters. The mark is positioned at the beginning of the current line, and the point is moved to the end of the specified number of lines.")
  [mkParam (bs "count") (bs "number") (bs "Number of lines to mark, starting from current line. Defaults to 1") true]
  [
    mkExample (bs "Mark current line (default behavior)") (bs "search-forward ""Second""; mark-line; buffer-substring (region-beginning) (region-end)")
      (bs "First line
Second line
Third line") (bs "Marks 'Second line\n'"); 
    mkExample (bs "Mark multiple lines") (bs "goto-char 15; mark-line 2")
      (bs "First line
Second line
Third line
Fourth line") (bs "Marks 'Second line\nThird line\n'")]
  [(bs "mark-word"); (bs "mark-whole-buffer"); (bs "beginning-of-line"); (bs "end-of-line")]
  (bs "mark").
(** edlisp/builtin_mark_whole_buffer.go:25-40 *)
Definition doc_mark_whole_buffer : function_doc := mkDoc (bs "mark-whole-buffer")
  (bs "Mark the entire buffer contents")
  (bs "Marks the entire buffer contents by setting the mark at the beginning of the buffer (position 1) and moving the point to the end of the buffer. This creates a region that encompasses all text in the buffer.")
  []
  [
    mkExample (bs "Mark entire buffer") (bs "mark-whole-buffer; mark; point")
      (bs "Hello world test buffer content") (bs "Mark at position 1, point at end of buffer")]
  [(bs "mark-line"); (bs "mark-word"); (bs "beginning-of-buffer"); (bs "end-of-buffer")]
  (bs "mark").
(** edlisp/builtin_mark_word.go:44-59 *)
Definition doc_mark_word : function_doc := mkDoc (bs "mark-word")
  (bs "Mark the word at or after current position")
  (bs "Marks the word at or after the current point position. This function identifies word boundaries using letter characters and sets up a region that encompasses the entire word. The mark is positioned at the beginning of the word, and the point is moved to the end of the word.")
  []
  [
    mkExample (bs "Mark word from within the word") (bs "goto-char 7; mark-word; region-beginning; region-end")
      (bs "Hello world, this is a test buffer.") (bs "Marks 'world' - mark at position 7, point at position 12")]
  [(bs "mark-line"); (bs "mark-whole-buffer"); (bs "forward-word"); (bs "backward-word")]
  (bs "mark").
(** edlisp/builtin_point.go:45-57 *)
Definition doc_point : function_doc := mkDoc (bs "point")
  (bs "Return the current position of the point (cursor) in the buffer")
  (bs "Returns the current cursor position in the buffer. The point is 1-based, where 1 is before the first character. When the point equals point-max, it is positioned after the last character. The point is fundamental for buffer navigation and editing operations.")
  []
  [
    mkExample (bs "Get point at beginning") (bs "point")
      (bs "Hello world") (bs "1"); 
    mkExample (bs "Get point after moving") (bs "goto-char 5; point")
      (bs "Hello world") (bs "5"); 
    mkExample (bs "Get point at end") (bs "goto-char 12; point")
      (bs "Hello world") (bs "12")]
  [(bs "mark"); (bs "goto-char"); (bs "point-min"); (bs "point-max")]
  (bs "position").
(** edlisp/builtin_point_max.go:47-59 *)
Definition doc_point_max : function_doc := mkDoc (bs "point-max")
  (bs "Return the maximum valid position for the point in the buffer")
  (bs "Returns the position just after the last character in the buffer (buffer-size + 1). This is the furthest position the point can be moved to, representing the end of the buffer. Useful for determining buffer boundaries and validating positions.")
  []
  [
    mkExample (bs "Get point-max of buffer") (bs "point-max")
      (bs "Hello world test") (bs "17"); 
    mkExample (bs "Get point-max of empty buffer") (bs "point-max")
      (bs "") (bs "1"); 
    mkExample (bs "Move to end and verify") (bs "end-of-buffer; point; point-max")
      (bs "Hello") (bs "6; 6")]
  [(bs "point-min"); (bs "buffer-size"); (bs "point"); (bs "end-of-buffer")]
  (bs "position").
(** edlisp/builtin_point_min.go:48-60 *)
Definition doc_point_min : function_doc := mkDoc (bs "point-min")
  (bs "Return the minimum valid position for the point in the buffer")
  (bs "Returns the minimum valid point position, which is always 1. This represents the position just before the first character in the buffer. The point-min is constant regardless of buffer content or size, providing the start boundary for all position-based operations.")
  []
  [
    mkExample (bs "Get point-min of any buffer") (bs "point-min")
      (bs "Hello world") (bs "1"); 
    mkExample (bs "Get point-min of empty buffer") (bs "point-min")
      (bs "") (bs "1"); 
    mkExample (bs "Move to beginning and verify") (bs "beginning-of-buffer; point; point-min")
      (bs "Hello") (bs "1; 1")]
  [(bs "point-max"); (bs "buffer-size"); (bs "point"); (bs "beginning-of-buffer")]
  (bs "position").
(** edlisp/builtin_re_search_backward.go:59-87 *)
Definition doc_re_search_backward : function_doc := mkDoc (bs "re-search-backward")
  (bs "Search for regular expression pattern backward from current position")
  (bs "Searches for the given regular expression pattern backward from the current point using Go's regexp package syntax. Finds all matches before the current position and selects the rightmost (closest to point) match. If found, moves point to the end of the match and stores match information for use with replace-match. If not found, returns an error and leaves point unchanged. If the pattern is invalid, returns a compilation error.")
  [mkParam (bs "regexp") (bs "string") (bs "Regular expression pattern to search for (Go regexp syntax)") false]
  [
    mkExample (bs "Search backward for literal text") (bs "end-of-buffer; re-search-backward ""two""")
      (bs "One two three") (bs "Point moves to position 8 (after 'two')"); 
    mkExample (bs "Search backward for pattern") (bs "end-of-buffer; re-search-backward ""[a-z]+""")
      (bs "Hello 123 world") (bs "Point moves to position after rightmost word match")]
  [(bs "re-search-forward"); (bs "search-backward"); (bs "replace-match"); (bs "looking-back")]
  (bs "search").
(** edlisp/builtin_re_search_forward.go:55-83 *)
Definition doc_re_search_forward : function_doc := mkDoc (bs "re-search-forward")
  (bs "Search for regular expression pattern forward from current position")
  (bs "Searches for the given regular expression pattern forward from the current point using Go's regexp package syntax. If found, moves point to the end of the match and stores match information for use with replace-match. If not found, returns an error and leaves point unchanged. If the pattern is invalid, returns a compilation error.")
  [mkParam (bs "regexp") (bs "string") (bs "Regular expression pattern to search for (Go regexp syntax)") false]
  [
    mkExample (bs "Search for word followed by digits") (bs "re-search-forward ""[a-z]+[0-9]+""")
      (bs "The function foo123 is defined here.") (bs "Point moves to position 20 (after 'foo123')"); 
    mkExample (bs "Search for digit pattern") (bs "re-search-forward ""[0-9]+""")
      (bs "Hello 123 world") (bs "Point moves to position after first number match")]
  [(bs "re-search-backward"); (bs "search-forward"); (bs "replace-match"); (bs "looking-at")]
  (bs "search").
(** edlisp/builtin_region_beginning.go:27-48 *)
Definition doc_region_beginning : function_doc := mkDoc (bs "region-beginning")
  (bs "Return the position of the beginning of the current region")
  (bs "Returns the position of the beginning of the current region. The region is defined by the point and mark positions. This function returns the smaller of the two positions, ensuring that the beginning is always the leftmost position regardless of whether point is before or after mark.")
  []
  [
    mkExample (bs "Get region beginning when mark is before point") (bs "goto-char 5; set-mark; goto-char 10; region-beginning")
      (bs "Hello world test") (bs "Returns 5 (mark position, which is smaller)"); 
    mkExample (bs "Get region beginning when point is before mark") (bs "goto-char 10; set-mark; goto-char 5; region-beginning")
      (bs "Hello world test") (bs "Returns 5 (point position, which is smaller)")]
  [(bs "region-end"); (bs "mark"); (bs "point"); (bs "buffer-substring")]
  (bs "region").
(** edlisp/builtin_region_end.go:27-48 *)
Definition doc_region_end : function_doc := mkDoc (bs "region-end")
  (bs "Return the position of the end of the current region")
  (bs "Returns the position of the end of the current region. The region is defined by the point and mark positions. This function returns the larger of the two positions, ensuring that the end is always the rightmost position regardless of whether point is before or after mark.")
  []
  [
    mkExample (bs "Get region end when point is after mark") (bs "goto-char 5; set-mark; goto-char 10; region-end")
      (bs "Hello world test") (bs "Returns 10 (point position, which is larger)"); 
    mkExample (bs "Get region end when mark is after point") (bs "goto-char 10; set-mark; goto-char 5; region-end")
      (bs "Hello world test") (bs "Returns 10 (mark position, which is larger)")]
  [(bs "region-beginning"); (bs "mark"); (bs "point"); (bs "buffer-substring")]
  (bs "region").
(** edlisp/builtin_replace_match.go:48-76 *)
Definition doc_replace_match : function_doc := mkDoc (bs "replace-match")
  (bs "Replace text of last search match with new text")
  (bs "Replaces the text of the last successful search match with new text. Takes one argument: the replacement string. This function requires that a search operation (search-forward, search-backward, re-search-forward, or re-search-backward) has been performed previously to establish match boundaries. Replaces the matched text with the provided replacement string and moves point to the end of the replacement text. Returns an empty string on success. If no previous search has been performed, returns an error.")
  [mkParam (bs "replacement") (bs "string") (bs "Text to replace the last search match with") false]
  [
    mkExample (bs "Replace matched text after search") (bs "search-forward ""old""; replace-match ""new""")
      (bs "Hello old world, this is a test.") (bs "Buffer becomes 'Hello new world, this is a test.' and point moves to end of replacement"); 
    mkExample (bs "Replace regex match") (bs "re-search-forward ""[0-9]+""; replace-match ""NUM""")
      (bs "Version 123 released") (bs "Buffer becomes 'Version NUM released' and point moves after 'NUM'")]
  [(bs "search-forward"); (bs "search-backward"); (bs "re-search-forward"); (bs "re-search-backward"); (bs "replace-regexp-in-string")]
  (bs "search").
(** edlisp/builtin_replace_regexp_in_string.go:37-83 *)
Definition doc_replace_regexp_in_string : function_doc := mkDoc (bs "replace-regexp-in-string")
  (bs "Replace all matches of a regular expression in a string")
  (bs "Performs regular expression replacement on a string. Takes three arguments: a regular expression pattern, a replacement string, and a target string. The pattern must be a valid regular expression using Go's regexp package syntax. Returns a new string with all matches of the pattern replaced by the replacement string. This is a pure string operation that does not modify the buffer or affect the point. If the pattern is invalid, returns a compilation error.")
  [mkParam (bs "regexp") (bs "string") (bs "Regular expression pattern to search for (Go regexp syntax)") false; mkParam (bs "replacement") (bs "string") (bs "Text to replace each match with") false; mkParam (bs "string") (bs "string") (bs "Target string to perform replacements on") false]
  [
    mkExample (bs "Replace all occurrences of a character") (bs "replace-regexp-in-string ""o"" ""0"" ""Hello world""")
      (bs "Test buffer") (bs "Returns 'Hell0 w0rld' (all 'o' characters replaced with '0')"); 
    mkExample (bs "Replace all number sequences with placeholder") (bs "replace-regexp-in-string ""[0-9]+"" ""NUM"" ""Hello 123 world 456""")
      (bs "Test buffer") (bs "Returns 'Hello NUM world NUM' (all digit sequences replaced)"); 
    mkExample (bs "Replace multiple word patterns") (bs "replace-regexp-in-string ""\\b[a-z]+\\b"" ""WORD"" ""hello world test""")
      (bs "Test buffer") (bs "Returns 'WORD WORD WORD' (all lowercase words replaced)")]
  [(bs "string-match"); (bs "replace-match"); (bs "re-search-forward"); (bs "re-search-backward")]
  (bs "string").
(** edlisp/builtin_replace_region.go:53-81 *)
Definition doc_replace_region : function_doc := mkDoc (bs "replace-region")
  (bs "Replace text between mark and point with new text")
  (bs "Replaces the text between mark and point with the given string. The region is automatically normalized so it doesn't matter which of mark or point comes first. After replacement, point is positioned at the end of the new text. This is useful for making targeted edits to specific parts of the buffer.")
  [mkParam (bs "replacement") (bs "string") (bs "Text to replace the selected region with") false]
  [
    mkExample (bs "Replace selected text") (bs "goto-char 7; set-mark; goto-char 10; replace-region ""new""")
      (bs "Hello old world, this is a test.") (bs "Hello new world, this is a test."); 
    mkExample (bs "Replace with empty string (delete region)") (bs "mark-word; replace-region """"")
      (bs "delete this word") (bs " this word (first word deleted)")]
  [(bs "set-mark"); (bs "mark-word"); (bs "mark-line"); (bs "delete-region"); (bs "insert")]
  (bs "editing").
(** edlisp/builtin_search_backward.go:50-78 *)
Definition doc_search_backward : function_doc := mkDoc (bs "search-backward")
  (bs "Search for text backward from current position")
  (bs "Searches for the given string backward from the current point. If found, moves point to the end of the match and stores match information for use with replace-match. If not found, returns an error and leaves point unchanged. The search examines text before the current point position.")
  [mkParam (bs "pattern") (bs "string") (bs "Text pattern to search for") false]
  [
    mkExample (bs "Basic backward text search") (bs "end-of-buffer search-backward ""test""")
      (bs "Hello world, this is a test buffer.
The word ""test"" appears twice here.
Another line with test content.") (bs "Point moves to position after the last 'test' (position 95)"); 
    mkExample (bs "Search that fails") (bs "beginning-of-buffer search-backward ""missing""")
      (bs "Hello world") (bs "Error: search failed")]
  [(bs "search-forward"); (bs "re-search-backward"); (bs "replace-match")]
  (bs "search").
(** edlisp/builtin_search_forward.go:49-77 *)
Definition doc_search_forward : function_doc := mkDoc (bs "search-forward")
  (bs "Search for text forward from current position")
  (bs "Searches for the given string forward from the current point. If found, moves point to the end of the match and stores match information for use with replace-match. If not found, returns an error and leaves point unchanged.")
  [mkParam (bs "pattern") (bs "string") (bs "Text pattern to search for") false]
  [
    mkExample (bs "Basic text search") (bs "search-forward ""test""")
      (bs "Hello world, this is a test buffer.") (bs "Point moves to position after 'test' (position 28)"); 
    mkExample (bs "Search that fails") (bs "search-forward ""missing""")
      (bs "Hello world") (bs "Error: search failed")]
  [(bs "search-backward"); (bs "re-search-forward"); (bs "replace-match")]
  (bs "search").
(** edlisp/builtin_set_mark.go:21-36 *)
Definition doc_set_mark : function_doc := mkDoc (bs "set-mark")
  (bs "Set mark at current point position")
  (bs "Sets the mark at the current point position. The mark serves as a secondary position that, together with point, defines a region. This function takes no arguments and always sets the mark to the current point location.")
  []
  [
    mkExample (bs "Set mark at current position") (bs "goto-char 7; set-mark; mark")
      (bs "Hello world, this is a test buffer.") (bs "Mark is set to position 7, same as current point")]
  [(bs "set-mark-command"); (bs "mark"); (bs "region-beginning"); (bs "region-end")]
  (bs "mark").
(** edlisp/builtin_set_mark_command.go:32-60 *)
Definition doc_set_mark_command : function_doc := mkDoc (bs "set-mark-command")
  (bs "Set mark at specified position or current point")
  (bs "Sets the mark at a specified position or at the current point. When called without arguments, it behaves identically to set-mark (sets mark at current point). When called with a position argument, it sets the mark at that specific position.")
  [mkParam (bs "position") (bs "number") (bs "Buffer position where to set the mark (1-based). If omitted, uses current point") true]
  [
    mkExample (bs "Set mark at specific position") (bs "set-mark-command 5; mark")
      (bs "Hello world test") (bs "Mark is set to position 5"); 
    mkExample (bs "Set mark at current point (no argument)") (bs "goto-char 8; set-mark-command; mark")
      (bs "Hello world test") (bs "Mark is set to position 8 (current point)")]
  [(bs "set-mark"); (bs "mark"); (bs "goto-char"); (bs "region-beginning"); (bs "region-end")]
  (bs "mark").
(** edlisp/builtin_string_match.go:49-89 *)
Definition doc_string_match : function_doc := mkDoc (bs "string-match")
  (bs "Search for pattern within a string and return match index")
  (bs "Searches for a pattern within a string and returns the index of the first match. Takes two arguments: a pattern and a target string to search within. The pattern can be either a literal string or a regular expression. If the pattern is a valid regular expression, it uses regexp matching. If the pattern is not a valid regexp, it falls back to literal string search. Returns the 0-based index of the first match as a number, or the symbol 'nil' if no match is found. This function operates on string arguments and does not modify the buffer.")
  [mkParam (bs "pattern") (bs "string") (bs "Pattern to search for (literal string or regular expression)") false; mkParam (bs "string") (bs "string") (bs "Target string to search within") false]
  [
    mkExample (bs "Search for literal text in string") (bs "string-match ""wor"" ""Hello world""")
      (bs "Test buffer") (bs "Returns 6 (index of 'wor' in 'Hello world')"); 
    mkExample (bs "Search for regex pattern in string") (bs "string-match ""[0-9]+"" ""Hello 123 world""")
      (bs "Test buffer") (bs "Returns 6 (index of first digit sequence)"); 
    mkExample (bs "Pattern not found in string") (bs "string-match ""xyz"" ""Hello world""")
      (bs "Test buffer") (bs "Returns 'nil' (pattern not found)")]
  [(bs "looking-at"); (bs "re-search-forward"); (bs "replace-regexp-in-string")]
  (bs "string").
(** edlisp/builtin_substring.go:91-106 *)
Definition doc_substring : function_doc := mkDoc (bs "substring")
  (bs "Extract a portion of a string")
  (bs "Extracts a substring from STRING starting at START (1-based, inclusive). If END is provided, extracts up to END (1-based, exclusive). If END is omitted, extracts to the end of the string. Performs bounds checking and adjusts invalid indices safely.")
  [mkParam (bs "string") (bs "string") (bs "The source string to extract from") false; mkParam (bs "start") (bs "number") (bs "The starting position (1-based, inclusive)") false; mkParam (bs "end") (bs "number") (bs "The ending position (1-based, exclusive) - optional") true]
  [
    mkExample (bs "Extract substring with start and end") (bs "substring ""Hello world"" 1 5")
      (bs "") (bs """Hell"""); 
    mkExample (bs "Extract substring to end") (bs "substring ""Hello world"" 7")
      (bs "") (bs """world""")]
  [(bs "length"); (bs "concat")]
  (bs "string").
(** edlisp/builtin_upcase.go:45-58 *)
Definition doc_upcase : function_doc := mkDoc (bs "upcase")
  (bs "Convert string to uppercase")
  (bs "Converts all alphabetic characters in STRING to uppercase. Non-alphabetic characters remain unchanged.")
  [mkParam (bs "string") (bs "string") (bs "The string to convert to uppercase") false]
  [
    mkExample (bs "Convert mixed case to uppercase") (bs "upcase ""Hello World""")
      (bs "") (bs """HELLO WORLD"""); 
    mkExample (bs "Convert with numbers") (bs "upcase ""test123""")
      (bs "") (bs """TEST123""")]
  [(bs "downcase"); (bs "capitalize")]
  (bs "string").

Definition registered : registry := [
  doc_backward_char;
  doc_backward_kill_word;
  doc_backward_word;
  doc_beginning_of_buffer;
  doc_beginning_of_line;
  doc_buffer_size;
  doc_buffer_substring;
  doc_capitalize;
  doc_concat;
  doc_current_column;
  doc_delete_backward_char;
  doc_delete_char;
  doc_delete_line;
  doc_delete_region;
  doc_downcase;
  doc_end_of_buffer;
  doc_end_of_line;
  doc_exchange_point_and_mark;
  doc_forward_char;
  doc_forward_word;
  doc_goto_char;
  doc_goto_line;
  doc_insert;
  doc_kill_line;
  doc_kill_word;
  doc_length;
  doc_line_number_at_pos;
  doc_looking_at;
  doc_looking_back;
  doc_mark;
  doc_mark_line;
  doc_mark_whole_buffer;
  doc_mark_word;
  doc_point;
  doc_point_max;
  doc_point_min;
  doc_re_search_backward;
  doc_re_search_forward;
  doc_region_beginning;
  doc_region_end;
  doc_replace_match;
  doc_replace_regexp_in_string;
  doc_replace_region;
  doc_search_backward;
  doc_search_forward;
  doc_set_mark;
  doc_set_mark_command;
  doc_string_match;
  doc_substring;
  doc_upcase].
